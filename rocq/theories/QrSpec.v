(** * A QR symbol and its reader, written from the standard (ISO/IEC 18004) and independent of the code.

    Rows and columns count from 0.  A symbol is given by its side and a predicate: black row column.  Texts and codewords
    are lists of bytes (N); bit strings are most significant bit first. *)
From Coq Require Import NArith Arith List Bool.
Import ListNotations.
Open Scope nat_scope.

(** ** Geometry *)
Definition side (v : nat) : nat := 17 + 4 * v.
(** Row/column coordinates of alignment pattern centres (Annex E). *)
Definition align_centres (v : nat) : list nat :=
  nth v [ []; []; [6;18]; [6;22]; [6;26]; [6;30]; [6;34]; [6;22;38]; [6;24;42]; [6;26;46]; [6;28;50]; [6;30;54]; [6;32;58];
   [6;34;62]; [6;26;46;66]; [6;26;48;70]; [6;26;50;74]; [6;30;54;78]; [6;30;56;82]; [6;30;58;86]; [6;34;62;90];
   [6;28;50;72;94]; [6;26;50;74;98]; [6;30;54;78;102]; [6;28;54;80;106]; [6;32;58;84;110]; [6;30;58;86;114];
   [6;34;62;90;118]; [6;26;50;74;98;122]; [6;30;54;78;102;126]; [6;26;52;78;104;130]; [6;30;56;82;108;134];
   [6;34;60;86;112;138]; [6;30;58;86;114;142]; [6;34;62;90;118;146]; [6;30;54;78;102;126;150];
   [6;24;50;76;102;128;154]; [6;28;54;80;106;132;158]; [6;32;58;84;110;136;162]; [6;26;54;82;110;138;166];
   [6;30;58;86;114;142;170] ] [].
Definition dist1 (a b : nat) : nat := (a - b) + (b - a).
(** Chebyshev distance. *)
Definition dist (y x cy cx : nat) : nat := Nat.max (dist1 y cy) (dist1 x cx).
(** Finder patterns with their separators: the three 8x8 corners. *)
Definition finder_centre (v y x : nat) : option (nat * nat) :=
  let n := side v in
  if (y <? 8) && (x <? 8) then Some (3, 3)
  else if (y <? 8) && (n - 8 <=? x) then Some (3, n - 4)
  else if (n - 8 <=? y) && (x <? 8) then Some (n - 4, 3)
  else None.
(** The alignment pattern covering a module; the three centres in the finder corners carry none.  (Centres are at least
    16 apart, so a coordinate is near at most one.) *)
Definition near (v y : nat) : option nat := find (fun c => dist1 y c <=? 2) (align_centres v).
Definition align_centre (v y x : nat) : option (nat * nat) :=
  let last := side v - 7 in
  match near v y, near v x with
  | Some cy, Some cx =>
      if ((cy =? 6) && (cx =? 6)) || ((cy =? 6) && (cx =? last)) || ((cy =? last) && (cx =? 6)) then None else Some (cy, cx)
  | _, _ => None
  end.
Definition is_timing (y x : nat) : bool := (y =? 6) || (x =? 6).
Definition is_version (v y x : nat) : bool :=
  let n := side v in
  (7 <=? v) && (((y <? 6) && (n - 11 <=? x) && (x <? n - 8)) || ((x <? 6) && (n - 11 <=? y) && (y <? n - 8))).
(** Format areas, with the dark module (side-8, 8). *)
Definition is_format (v y x : nat) : bool :=
  let n := side v in
  ((y =? 8) && ((x <=? 8) || (n - 8 <=? x))) || ((x =? 8) && ((y <=? 8) || (n - 8 <=? y))).
Definition is_dark (v y x : nat) : bool := (y =? side v - 8) && (x =? 8).
Definition is_function (v y x : nat) : bool :=
  match finder_centre v y x, align_centre v y x with
  | Some _, _ | _, Some _ => true
  | None, None => is_timing y x || is_version v y x || is_format v y x
  end.

(** Version information: 6 bits and their (18,6) BCH remainder, generator 1F25. *)
Fixpoint bch (steps shift : nat) (g r : N) : N :=
  match steps with
  | O => r
  | S k => bch k shift g (if N.testbit r (N.of_nat (shift + k)) then N.lxor r (N.shiftl g (N.of_nat k)) else r)
  end.
Definition version_info (v : nat) : N :=
  let d := N.shiftl (N.of_nat v) 12 in N.lor d (bch 6 12 0x1f25 d).
(** The colour of every function module except the format bits (None); alignment patterns win over timing, with which
    they agree. *)
Definition function_colour (v y x : nat) : option bool :=
  match finder_centre v y x with
  | Some c => let d := dist y x (fst c) (snd c) in Some (negb ((d =? 2) || (d =? 4)))
  | None =>
    match align_centre v y x with
    | Some c => Some (negb (dist y x (fst c) (snd c) =? 1))
    | None =>
      if is_timing y x then Some (Nat.even (y + x))
      else if is_version v y x then
        let i := if y <? 6 then 3 * y + (x - (side v - 11)) else 3 * x + (y - (side v - 11)) in
        Some (N.testbit (version_info v) (N.of_nat i))
      else if is_dark v y x then Some true else None
    end
  end.

(** Format information: where bit i (0 = least significant) sits, in both copies. *)
Definition format_cell1 (i : nat) : nat * nat :=
  if i <? 6 then (i, 8) else if i =? 6 then (7, 8) else if i =? 7 then (8, 8) else if i =? 8 then (8, 7) else (8, 14 - i).
Definition format_cell2 (n i : nat) : nat * nat := if i <? 8 then (8, n - 1 - i) else (n - 15 + i, 8).

(** Data mask conditions; i = row, j = column. *)
Definition mask_bit (m i j : nat) : bool :=
  match m with
  | 0 => (i + j) mod 2 =? 0
  | 1 => i mod 2 =? 0
  | 2 => j mod 3 =? 0
  | 3 => (i + j) mod 3 =? 0
  | 4 => (i / 2 + j / 3) mod 2 =? 0
  | 5 => (i * j) mod 2 + (i * j) mod 3 =? 0
  | 6 => ((i * j) mod 2 + (i * j) mod 3) mod 2 =? 0
  | _ => ((i + j) mod 2 + (i * j) mod 3) mod 2 =? 0
  end.

(** Placement order: pairs of columns from the right, the vertical timing column skipped, alternately upwards and
    downwards, right column first. *)
Definition pair_right (n k : nat) : nat := let c := n - 1 - 2 * k in if c <=? 6 then c - 1 else c.
Definition placement (n : nat) : list (nat * nat) :=
  flat_map (fun k => let c := pair_right n k in
     flat_map (fun y => [(y, c); (y, c - 1)]) (if Nat.even k then rev (seq 0 n) else seq 0 n)) (seq 0 ((n - 1) / 2)).
Definition data_cells (v : nat) : list (nat * nat) :=
  filter (fun p => negb (is_function v (fst p) (snd p))) (placement (side v)).

(** ** Codewords and blocks *)
Definition total_codewords (v : nat) : nat := length (data_cells v) / 8.
(** Table 9: error correction codewords per block and number of blocks, for L, M, Q, H. *)
Definition ecc_table : list (list nat) := [
  [0;7;10;15;20;26;18;20;24;30;18;20;24;26;30;22;24;28;30;28;28;28;28;30;30;26;28;30;30;30;30;30;30;30;30;30;30;30;30;30;30];
  [0;10;16;26;18;24;16;18;22;22;26;30;22;22;24;24;28;28;26;26;26;26;28;28;28;28;28;28;28;28;28;28;28;28;28;28;28;28;28;28;28];
  [0;13;22;18;26;18;24;18;22;20;24;28;26;24;20;30;24;28;28;26;30;28;30;30;30;30;28;30;30;30;30;30;30;30;30;30;30;30;30;30;30];
  [0;17;28;22;16;22;28;26;26;24;28;24;28;22;24;24;30;28;28;26;28;30;24;30;30;30;30;30;30;30;30;30;30;30;30;30;30;30;30;30;30] ].
Definition block_table : list (list nat) := [
  [0;1;1;1;1;1;2;2;2;2;4;4;4;4;4;6;6;6;6;7;8;8;9;9;10;12;12;12;13;14;15;16;17;18;19;19;20;21;22;24;25];
  [0;1;1;1;2;2;4;4;4;5;5;5;8;9;9;10;10;11;13;14;16;17;17;18;20;21;23;25;26;28;29;31;33;35;37;38;40;43;45;47;49];
  [0;1;1;2;2;4;4;6;6;8;8;8;10;12;16;12;17;16;18;21;20;23;23;25;27;29;34;34;35;38;40;43;45;48;51;53;56;59;62;65;68];
  [0;1;1;2;4;4;4;5;6;8;8;11;11;16;16;18;16;19;21;25;25;25;34;30;32;35;37;40;42;45;48;51;54;57;60;63;66;70;74;77;81] ].
Definition ecc_per_block (v l : nat) : nat := nth v (nth l ecc_table []) 0.
Definition num_blocks (v l : nat) : nat := nth v (nth l block_table []) 0.
Definition data_codewords (v l : nat) : nat := total_codewords v - num_blocks v l * ecc_per_block v l.
(** Short blocks first, then blocks with one more data codeword. *)
Definition block_lengths (v l : nat) : list nat :=
  let nb := num_blocks v l in
  let nd := data_codewords v l in
  repeat (nd / nb) (nb - nd mod nb) ++ repeat (S (nd / nb)) (nd mod nb).
(** Undo the interleaving: round i gives the next codeword to every block longer than i. *)
Fixpoint deal {A} (i : nat) (lens : list nat) (cws : list A) : list (list A) * list A :=
  match lens with
  | [] => ([], cws)
  | n :: lens' =>
      if i <? n then
        match cws with
        | c :: cws' => let '(bs, rest) := deal i lens' cws' in ([c] :: bs, rest)
        | [] => let '(bs, rest) := deal i lens' [] in ([] :: bs, rest)
        end
      else let '(bs, rest) := deal i lens' cws in ([] :: bs, rest)
  end.
Fixpoint zip_app {A} (a b : list (list A)) : list (list A) :=
  match a, b with x :: a', y :: b' => (x ++ y) :: zip_app a' b' | _, _ => [] end.
Fixpoint deinterleave {A} (todo i : nat) (lens : list nat) (cws : list A) : list (list A) :=
  match todo with
  | O => map (fun _ => []) lens
  | S t => let '(bs, rest) := deal i lens cws in zip_app bs (deinterleave t (S i) lens rest)
  end.
Definition blocks_of {A} (lens : list nat) (cws : list A) : list (list A) := deinterleave (list_max lens) 0 lens cws.

(** ** Bits *)
Definition bits_val (l : list bool) : N := fold_left (fun (a : N) (b : bool) => (2 * a + (if b then 1 else 0))%N) l 0%N.
Fixpoint bits_of (k : nat) (v : N) : list bool := match k with O => [] | S j => N.testbit v (N.of_nat j) :: bits_of j v end.
Fixpoint bytes_of_bits (fuel : nat) (l : list bool) : list N :=
  match fuel with O => [] | S f => match l with [] => [] | _ => bits_val (firstn 8 l) :: bytes_of_bits f (skipn 8 l) end end.

(** Terminator, bit padding and pad codewords up to nd data codewords. *)
Definition pad_codewords (n : nat) : list N := map (fun i => if Nat.even i then 0xec else 0x11)%N (seq 0 n).
Definition padded (nd : nat) (bits : list bool) : list bool :=
  let t := firstn (8 * nd) (bits ++ repeat false 4) in
  let a := t ++ repeat false ((8 - length t mod 8) mod 8) in
  a ++ flat_map (bits_of 8) (pad_codewords (nd - length a / 8)).
(** Consecutive pieces of the given lengths. *)
Fixpoint chunks {A} (lens : list nat) (l : list A) : list (list A) :=
  match lens with [] => [] | n :: t => firstn n l :: chunks t (skipn n l) end.

(** ** Segments *)
Definition alnum : list N := (map N.of_nat (seq 48 10) ++ map N.of_nat (seq 65 26) ++ [32; 36; 37; 42; 43; 45; 46; 47; 58])%N.
Definition count_bits (v mode : nat) : nat :=
  let c := if v <=? 9 then 0 else if v <=? 26 then 1 else 2 in
  nth c (nth mode [[10; 12; 14]; [9; 11; 13]; [8; 16; 16]] []) 0.
Definition take_bits (k : nat) (l : list bool) : option (N * list bool) :=
  if length l <? k then None else Some (bits_val (firstn k l), skipn k l).
Definition digit (x : N) : N := (48 + x)%N.
Fixpoint read_num (count : nat) (l : list bool) : option (list N * list bool) :=
  match count with
  | O => Some ([], l)
  | 1 => match take_bits 4 l with
         | Some (x, r) => if (x <? 10)%N then Some ([digit x], r) else None | None => None end
  | 2 => match take_bits 7 l with
         | Some (x, r) => if (x <? 100)%N then Some ([digit (x / 10)%N; digit (x mod 10)%N], r) else None | None => None end
  | S (S (S c)) =>
      match take_bits 10 l with
      | Some (x, r) => if (x <? 1000)%N then
           match read_num c r with
           | Some (t, r') => Some (digit (x / 100)%N :: digit (x / 10 mod 10)%N :: digit (x mod 10)%N :: t, r')
           | None => None end else None
      | None => None end
  end.
Fixpoint read_alnum (count : nat) (l : list bool) : option (list N * list bool) :=
  match count with
  | O => Some ([], l)
  | 1 => match take_bits 6 l with
         | Some (x, r) => if (x <? 45)%N then Some ([nth (N.to_nat x) alnum 0%N], r) else None | None => None end
  | S (S c) =>
      match take_bits 11 l with
      | Some (x, r) => if (x <? 2025)%N then
           match read_alnum c r with
           | Some (t, r') => Some (nth (N.to_nat (x / 45)%N) alnum 0%N :: nth (N.to_nat (x mod 45)%N) alnum 0%N :: t, r')
           | None => None end else None
      | None => None end
  end.
Fixpoint read_bytes (count : nat) (l : list bool) : option (list N * list bool) :=
  match count with
  | O => Some ([], l)
  | S c => match take_bits 8 l with
           | Some (x, r) => match read_bytes c r with Some (t, r') => Some (x :: t, r') | None => None end
           | None => None end
  end.
(** Segments up to the terminator (0000, or fewer than four bits left); every segment uses at least four bits. *)
Fixpoint read_segments (fuel v : nat) (l : list bool) : option (list N) :=
  match fuel with
  | O => None
  | S f =>
      match take_bits 4 l with
      | None => Some []
      | Some (mode, r) =>
          if (mode =? 0)%N then Some []
          else
            let seg (m : nat) (rd : nat -> list bool -> option (list N * list bool)) :=
              match take_bits (count_bits v m) r with
              | None => None
              | Some (n, r1) =>
                  match rd (N.to_nat n) r1 with
                  | None => None
                  | Some (t, r2) => option_map (app t) (read_segments f v r2)
                  end
              end in
            if (mode =? 1)%N then seg 0 read_num
            else if (mode =? 2)%N then seg 1 read_alnum
            else if (mode =? 4)%N then seg 2 read_bytes
            else None
      end
  end.

(** Which mode a text needs, and how many bits it takes. *)
Definition all_digits (t : list N) : Prop := Forall (fun c => 48 <= c <= 57)%N t.
Definition all_alnum (t : list N) : Prop := Forall (fun c => In c alnum) t.
Inductive bits_needed (v : nat) (t : list N) : nat -> Prop :=
  | need_num : all_digits t -> bits_needed v t (4 + count_bits v 0 + 10 * (length t / 3) + nth (length t mod 3) [0; 4; 7] 0)
  | need_alnum : ~ all_digits t -> all_alnum t -> bits_needed v t (4 + count_bits v 1 + 11 * (length t / 2) + nth (length t mod 2) [0; 6] 0)
  | need_bytes : ~ all_digits t -> ~ all_alnum t -> bits_needed v t (4 + count_bits v 2 + 8 * length t).
Definition fits (v l : nat) (t : list N) : Prop := exists k, bits_needed v t k /\ k <= 8 * data_codewords v l.

(** ** The reader *)
Definition read_format (n : nat) (black : nat -> nat -> bool) : option (nat * nat) :=
  let word (cell : nat -> nat * nat) := map (fun i => let c := cell (14 - i) in black (fst c) (snd c)) (seq 0 15) in
  let w1 := word format_cell1 in
  let w2 := word (format_cell2 n) in
  let f := N.lxor (bits_val w1) 0x5412 in
  if (bits_val w1 =? bits_val w2)%N && (bch 5 10 0x537 f =? 0)%N
  then Some (nth (N.to_nat (N.shiftr f 13)) [1; 0; 3; 2] 0, N.to_nat (N.land (N.shiftr f 10) 7))   (* 01 = L, 00 = M, 11 = Q, 10 = H *)
  else None.
(** Level, mask, and the (data, check) codewords of every block. *)
Record reading := { rd_version : nat; rd_level : nat; rd_mask : nat; rd_blocks : list (list N * list N) }.
Definition read_symbol (n : nat) (black : nat -> nat -> bool) : option reading :=
  let v := (n - 17) / 4 in
  if negb ((n =? side v) && (1 <=? v) && (v <=? 40)) then None
  else
    match read_format n black with
    | None => None
    | Some (l, m) =>
        let bits := map (fun c => xorb (black (fst c) (snd c)) (mask_bit m (fst c) (snd c))) (data_cells v) in
        let cws := bytes_of_bits (total_codewords v) (firstn (8 * total_codewords v) bits) in
        let nd := data_codewords v l in
        let data := blocks_of (block_lengths v l) (firstn nd cws) in
        let check := blocks_of (repeat (ecc_per_block v l) (num_blocks v l)) (skipn nd cws) in
        Some {| rd_version := v; rd_level := l; rd_mask := m; rd_blocks := combine data check |}
    end.
(** The text of the symbol (no error correction: data blocks are taken as they are). *)
Definition read_text (n : nat) (black : nat -> nat -> bool) : option (nat * list N) :=
  match read_symbol n black with
  | None => None
  | Some r =>
      let bits := flat_map (bits_of 8) (flat_map fst (rd_blocks r)) in
      option_map (pair (rd_level r)) (read_segments (S (length bits)) (rd_version r) bits)
  end.
