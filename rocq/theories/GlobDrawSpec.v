(** * What globdraw is to print: the picture of a tree, as a graph in the DOT language. *)
From Coq Require Import String.
From Coq Require Import ZArith Arith List Bool.
From Verif Require Import GoStr GlobMatch GlobDraw.
Import ListNotations.
Open Scope nat_scope.

(** ** The part of DOT used: statements "id"[label="text"]; and "id"->"id"; *)
Inductive Stmt := Vertex (id label : str) | Arrow (from to : str).
Definition quote : Z := 34%Z.
Definition backslash : Z := 92%Z.
(** What may stand between double quotes: a quote in it has a backslash before it. *)
Inductive quotable : str -> Prop :=
  | qu_nil : quotable []
  | qu_char c s : c <> quote -> c <> backslash -> quotable s -> quotable (c :: s)
  | qu_pair c s : quotable s -> quotable (backslash :: c :: s).
Definition quoted (s : str) : str := [quote] ++ s ++ [quote].
(** The statements ss can be written as s. *)
Inductive statements : list Stmt -> str -> Prop :=
  | st_end : statements [] []
  | st_vertex id label ss s : quotable id -> quotable label -> statements ss s ->
      statements (Vertex id label :: ss) (quoted id ++ lit "[label=" ++ quoted label ++ lit "];" ++ s)
  | st_arrow a b ss s : quotable a -> quotable b -> statements ss s -> statements (Arrow a b :: ss) (quoted a ++ lit "->" ++ quoted b ++ lit ";" ++ s).
(** A DOT text: a graph with a title and these statements. *)
Definition dot (title : str) (ss : list Stmt) (text : str) : Prop :=
  quotable title /\ exists s, statements ss s /\ text = lit "digraph G {graph[label=" ++ quoted title ++ lit "];" ++ s ++ lit "}".

(** ** Pictures of trees *)
Inductive Tree := Fork (label : str) (below : list Tree).
(** The statements that draw a tree at the vertex id: its label, and for each subtree an arrow to a vertex where that is drawn. *)
Inductive drawn : Tree -> str -> list Stmt -> Prop :=
  | dr_fork label ts id ss : all_drawn id ts ss -> drawn (Fork label ts) id (Vertex id label :: ss)
with all_drawn : str -> list Tree -> list Stmt -> Prop :=
  | ad_nil id : all_drawn id [] []
  | ad_first id t ts c sub ss : drawn t c sub -> all_drawn id ts ss -> all_drawn id (t :: ts) (Arrow id c :: sub ++ ss)
  | ad_last id t ts c sub ss : drawn t c sub -> all_drawn id ts ss -> all_drawn id (t :: ts) (sub ++ Arrow id c :: ss).
(** The tree a matcher is shown as: a search tree with its value, left and right part, alternatives and conjunctions with their members,
    every other matcher as its String. *)
Fixpoint tree_of (m : Matcher) : Tree :=
  match m with
  | MBTree v l r _ _ _ =>
      Fork (String_ v) [match l with Some x => tree_of x | None => Fork (lit "<nil>") [] end; match r with Some x => tree_of x | None => Fork (lit "<nil>") [] end]
  | MAnyOf ms => Fork (lit "AnyOf") (map tree_of ms)
  | MEveryOf ms => Fork (lit "EveryOf") (map tree_of ms)
  | _ => Fork (String_ m) []
  end.
(** A text (of bytes) without percent signs, double quotes, backslashes and NUL. *)
Definition harmless (s : str) : Prop := Forall (fun c => (0 < c < 256)%Z /\ c <> percent /\ c <> quote /\ c <> backslash) s.

(** ** Reading a graph *)
Fixpoint vertices (ss : list Stmt) : list str := match ss with [] => [] | Vertex i _ :: r => i :: vertices r | Arrow _ _ :: r => vertices r end.
(** Where the arrows from a vertex lead, in order. *)
Fixpoint targets (ss : list Stmt) (from : str) : list str :=
  match ss with
  | [] => []
  | Vertex _ _ :: r => targets r from
  | Arrow a b :: r => if list_eq_dec Z.eq_dec a from then b :: targets r from else targets r from
  end.
(** The tree that can be read off a graph from the vertex id on: its label, and the trees read off at the ends of its arrows. *)
Inductive shows (ss : list Stmt) : str -> Tree -> Prop :=
  | sh_fork id label ts : In (Vertex id label) ss -> Forall2 (shows ss) (targets ss id) ts -> shows ss id (Fork label ts).
