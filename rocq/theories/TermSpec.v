(** * What a QR symbol on a terminal should look like; independent of the code. *)
From Coq Require Import NArith Arith List Bool.
Import ListNotations.
Open Scope nat_scope.

(** A symbol of side n in the middle of a white frame q modules wide: is the module in row y, column x dark? *)
Definition framed (n q : nat) (black : nat -> nat -> bool) (y x : nat) : bool :=
  (q <=? y) && (y <? q + n) && (q <=? x) && (x <? q + n) && black (y - q) (x - q).

(** Text with h lines of w glyphs each. *)
Definition picture (h w : nat) (glyph : nat -> nat -> list N) : list N :=
  flat_map (fun y => flat_map (glyph y) (seq 0 w) ++ [10%N]) (seq 0 h).

(** ** Reading a terminal *)
(** Split at newlines; an unfinished last line is dropped. *)
Fixpoint lines (acc s : list N) : list (list N) :=
  match s with
  | [] => []
  | c :: s' => if (c =? 10)%N then rev acc :: lines [] s' else lines (c :: acc) s'
  end.
Fixpoint strip (p s : list N) : option (list N) :=
  match p, s with
  | [], _ => Some s
  | a :: p', b :: s' => if (a =? b)%N then strip p' s' else None
  | _, [] => None
  end.
(** The first glyph of the line. *)
Fixpoint one_glyph {A} (table : list (list N * A)) (s : list N) : option (A * list N) :=
  match table with
  | [] => None
  | (g, a) :: t => match strip g s with Some r => Some (a, r) | None => one_glyph t s end
  end.
Fixpoint glyphs {A} (table : list (list N * A)) (fuel : nat) (s : list N) : option (list A) :=
  match s, fuel with
  | [], _ => Some []
  | _, O => None
  | _, S f => match one_glyph table s with
              | Some (a, r) => option_map (cons a) (glyphs table f r)
              | None => None end
  end.
Fixpoint all_some {A} (l : list (option A)) : option (list A) :=
  match l with
  | [] => Some []
  | Some a :: t => option_map (cons a) (all_some t)
  | None :: _ => None
  end.
Definition screen {A} (table : list (list N * A)) (out : list N) : option (list (list A)) :=
  all_some (map (fun l => glyphs table (length l) l) (lines [] out)).
(** Full blocks: two spaces on a white (47) or black (40) background, then reset.  true = dark. *)
Definition full_glyphs : list (list N * bool) :=
  [ ([27; 91; 52; 55; 109; 32; 32; 27; 91; 48; 109]%N, false); ([27; 91; 52; 48; 109; 32; 32; 27; 91; 48; 109]%N, true) ].
(** Half blocks, drawn light on a dark terminal: U+2588 full, U+2580 upper, U+2584 lower block, space. (upper, lower) *)
Definition half_glyphs : list (list N * (bool * bool)) :=
  [ ([0xe2; 0x96; 0x88]%N, (false, false)); ([0xe2; 0x96; 0x80]%N, (false, true)); ([0xe2; 0x96; 0x84]%N, (true, false)); ([32]%N, (true, true)) ].
Definition two_rows (row : list (bool * bool)) : list (list bool) := [map fst row; map snd row].
(** The symbol inside a frame of q modules. *)
Definition crop_side (q : nat) (rows : list (list bool)) : nat := length (hd [] rows) - 2 * q.
Definition crop (q : nat) (rows : list (list bool)) (y x : nat) : bool :=
  (y <? crop_side q rows) && (x <? crop_side q rows) && nth (x + q) (nth (y + q) rows []) false.
