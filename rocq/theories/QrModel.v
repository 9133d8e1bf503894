(** * Model of qrterminal/qrcode/coding/qr.go and qrterminal/qrcode/qr.go.

    Bytes and uint values are N; counts, indices and ints that are never negative are nat; coordinates
    that can leave the grid are Z.  [None] is a Go panic unless a comment says otherwise.  Versions and levels are nat; a version
    index beyond vtab or a level beyond 3 is an index panic in Go and is outside the model's use. *)
From Coq Require Import String.
From Coq Require Import NArith ZArith Arith List Bool Ascii.
From Verif Require Import Utf8 Gf256Model QrVtab.
Import ListNotations.
Open Scope nat_scope.

Definition vt (v : nat) : version := nth v vtab (mkv 0 0 0 0%N []).
(** vtab[v].level[l] *)
Definition nblock (v l : nat) : nat := fst (nth l (levels (vt v)) (0, 0)).
Definition ncheck (v l : nat) : nat := snd (nth l (levels (vt v)) (0, 0)).

(** var Field (coding/qr.go:13). *)
Definition QField : Field := match NewField 0x11d 2 with Some f => f | None => {| f_log := []; f_exp := [] |} end.

(** func (v Version) sizeClass (coding/qr.go:29-37). *)
Definition sizeClass (v : nat) : nat := if v <=? 9 then 0 else if v <=? 26 then 1 else 2.
(** func (v Version) DataBytes (coding/qr.go:41-45). *)
Definition DataBytes (v l : nat) : nat := vbytes (vt v) - nblock v l * ncheck v l.

(** type Bits (coding/qr.go:57-60). *)
Record Bits := { bb : list N; nbit : nat }.
Definition bits0 : Bits := {| bb := []; nbit := 0 |}.
(** Bits.Bytes (71-76) and Bits.Append (78-84). *)
Definition Bytes (b : Bits) : option (list N) := if nbit b mod 8 =? 0 then Some (bb b) else None.
Definition Append (b : Bits) (p : list N) : option Bits :=
  if nbit b mod 8 =? 0 then Some {| bb := bb b ++ p; nbit := nbit b + 8 * length p |} else None.
(** -x & 7 *)
Definition neg7 (x : nat) : nat := (8 - x mod 8) mod 8.
Definition or_last (l : list N) (x : N) : list N := removelast l ++ [N.lor (last l 0%N) x].
(** func (b *Bits) Write (coding/qr.go:86-106); each round writes at least one bit, so nbit rounds are
    enough fuel. *)
Fixpoint write_loop (fuel : nat) (b : Bits) (v : N) (k : nat) : Bits :=
  match fuel with
  | O => b
  | S fuel' =>
      if k =? 0 then b
      else
        let n0 := Nat.min k 8 in
        let fresh := nbit b mod 8 =? 0 in
        let bytes := if fresh then bb b ++ [0%N] else bb b in
        let n := if fresh then n0 else Nat.min n0 (neg7 (nbit b)) in
        let nb := nbit b + n in
        let sh := k - n in
        let top := N.shiftr v (N.of_nat sh) in
        write_loop fuel' {| bb := or_last bytes (N.shiftl top (N.of_nat (neg7 nb)) mod 256)%N; nbit := nb |}
                   (v - N.shiftl top (N.of_nat sh))%N sh
  end.
Definition Write (b : Bits) (v : N) (k : nat) : Bits := write_loop k b v k.

(** ** Encodings *)
Inductive Encoding := Num (s : list N) | Alpha (s : list N) | Str (s : list N).
Definition bytes_of (s : string) : list N := map (fun a => N_of_ascii a) (list_ascii_of_string s).
(** const alphabet (coding/qr.go:153) and strings.IndexRune on it; None = -1. *)
Definition alphabet : list N := bytes_of "0123456789ABCDEFGHIJKLMNOPQRSTUVWXYZ $%*+-./:".
Fixpoint index_of (c : N) (l : list N) (i : nat) : option nat :=
  match l with [] => None | x :: l' => if N.eqb x c then Some i else index_of c l' (S i) end.
Definition digit_rune (c : Z) : bool := (48 <=? c)%Z && (c <=? 57)%Z.
Definition alpha_rune (c : Z) : bool := existsb (fun a => Z.of_N a =? c)%Z alphabet.
(** Check (coding/qr.go:116-123, 159-166, 197-199); true = nil error. *)
Definition Check (e : Encoding) : bool :=
  match e with
  | Num s => forallb digit_rune (runes (map Z.of_N s))
  | Alpha s => forallb alpha_rune (runes (map Z.of_N s))
  | Str _ => true
  end.
Definition numLen (c : nat) := nth c [10; 12; 14] 0.
Definition alphaLen (c : nat) := nth c [9; 11; 13] 0.
Definition stringLen (c : nat) := nth c [8; 16; 16] 0.
(** Bits(v) (coding/qr.go:127-129, 170-172, 203-205). *)
Definition EBits (e : Encoding) (v : nat) : nat :=
  match e with
  | Num s => 4 + numLen (sizeClass v) + (10 * length s + 2) / 3
  | Alpha s => 4 + alphaLen (sizeClass v) + (11 * length s + 1) / 2
  | Str s => 4 + stringLen (sizeClass v) + 8 * length s
  end.
(** uint(s[i]-'0'): byte subtraction. *)
Definition dig (c : N) : N := ((c + 208) mod 256)%N.
(** uint(strings.IndexRune(alphabet, rune(c))): -1 becomes 2^64-1. *)
Definition aidx (c : N) : N := match index_of c alphabet 0 with Some i => N.of_nat i | None => (2 ^ 64 - 1)%N end.
Fixpoint num_groups (b : Bits) (s : list N) : Bits :=
  match s with
  | x :: y :: z :: s' => num_groups (Write b (dig x * 100 + dig y * 10 + dig z)%N 10) s'
  | [x; y] => Write b (dig x * 10 + dig y)%N 7
  | [x] => Write b (dig x) 4
  | [] => b
  end.
Fixpoint alpha_groups (b : Bits) (s : list N) : Bits :=
  match s with
  | x :: y :: s' => alpha_groups (Write b ((aidx x * 45 + aidx y) mod 2 ^ 64)%N 11) s'
  | [x] => Write b (aidx x) 6
  | [] => b
  end.
Fixpoint str_bytes (b : Bits) (s : list N) : Bits :=
  match s with x :: s' => str_bytes (Write b x 8) s' | [] => b end.
(** Encode (coding/qr.go:131-147, 174-188, 207-213). *)
Definition EncodeE (e : Encoding) (b : Bits) (v : nat) : Bits :=
  match e with
  | Num s => num_groups (Write (Write b 1%N 4) (N.of_nat (length s)) (numLen (sizeClass v))) s
  | Alpha s => alpha_groups (Write (Write b 2%N 4) (N.of_nat (length s)) (alphaLen (sizeClass v))) s
  | Str s => str_bytes (Write (Write b 4%N 4) (N.of_nat (length s)) (stringLen (sizeClass v))) s
  end.

(** ** Padding and check bytes *)
(** The pad loop (coding/qr.go:386-392): pad bytes alternate EC, 11. *)
Fixpoint pad_loop (b : Bits) (ec : bool) (pad : nat) : Bits :=
  match pad with O => b | S p => pad_loop (Write b (if ec then 0xec else 0x11)%N 8) (negb ec) p end.
(** func (b *Bits) Pad (coding/qr.go:375-395) for n >= 0. *)
Definition Pad (b : Bits) (n : nat) : Bits :=
  if n <=? 4 then Write b 0%N n
  else
    let b1 := Write b 0%N 4 in
    let n1 := n - 4 - neg7 (nbit b1) in
    let b2 := Write b1 0%N (neg7 (nbit b1)) in
    pad_loop b2 true (n1 / 8).
(** The block loop (coding/qr.go:413-420).  dat[:db] is taken within dat (a longer slice would reach into the
    capacity; it never happens for the sizes of vtab and is a panic here). *)
Fixpoint check_loop (todo i nb extra db : nat) (chk : list N) (rs : RSEncoder) (dat : list N) (b : Bits) : option Bits :=
  match todo with
  | O => Some b
  | S t =>
      let db := if i =? nb - extra then S db else db in
      if length dat <? db then None
      else
        match ECC rs (firstn db dat) chk with
        | None => None
        | Some (chk', rs') =>
            match Append b chk' with
            | None => None
            | Some b' => check_loop t (S i) nb extra db chk' rs' (skipn db dat) b'
            end
        end
  end.
(** func (b *Bits) AddCheckBytes (coding/qr.go:397-425). *)
Definition AddCheckBytes (b : Bits) (v l : nat) : option Bits :=
  let nd := DataBytes v l in
  let b1 := if nbit b <? nd * 8 then Pad b (nd * 8 - nbit b) else b in
  if negb (nbit b1 =? nd * 8) then None
  else
    match Bytes b1 with
    | None => None
    | Some dat =>
        match check_loop (nblock v l) 0 (nblock v l) (nd mod nblock v l) (nd / nblock v l) (repeat 0%N (ncheck v l))
                         (NewRSEncoder QField (ncheck v l)) dat b1 with
        | None => None
        | Some b2 =>
            match Bytes b2 with
            | None => None
            | Some bytes => if length bytes =? vbytes (vt v) then Some b2 else None
            end
        end
    end.

(** ** Pixels and plans.  Pixel (coding/qr.go:216-249) packs black, invert, role and offset in one word;
    here they are the fields of a record (the offsets stay below 2^26). *)
Inductive Role := NoRole | Position | Alignment | Timing | Format | PVersion | Unused | RData | RCheck | RExtra.
Record Pixel := { role : Role; black : bool; invert : bool; offset : nat }.
Definition pix (r : Role) (b : bool) : Pixel := {| role := r; black := b; invert := false; offset := 0 |}.
Definition opix (r : Role) (o : nat) : Pixel := {| role := r; black := false; invert := false; offset := o |}.
Definition is_free (p : Pixel) : bool := match role p with NoRole => true | _ => false end.
Definition Grid := list (list Pixel).
(** func grid (coding/qr.go:522-529): all-zero pixels. *)
Definition grid (siz : nat) : Grid := repeat (repeat (pix NoRole false) siz) siz.
(** m[y][x] = p and m[y][x], with Go's bounds checks. *)
Definition setp (g : Grid) (y x : Z) (p : Pixel) : option Grid :=
  if ((y <? 0) || (x <? 0))%Z then None
  else match nth_error g (Z.to_nat y) with
       | None => None
       | Some row => if Z.to_nat x <? length row then Some (upd g (Z.to_nat y) (upd row (Z.to_nat x) p)) else None
       end.
Definition getp (g : Grid) (y x : Z) : option Pixel :=
  if ((y <? 0) || (x <? 0))%Z then None
  else match nth_error g (Z.to_nat y) with None => None | Some row => nth_error row (Z.to_nat x) end.
Definition set_o (g : option Grid) (w : Z * Z * Pixel) : option Grid :=
  match g with None => None | Some g => setp g (fst (fst w)) (snd (fst w)) (snd w) end.
(** A sequence of assignments. *)
Definition sets (g : option Grid) (ws : list (Z * Z * Pixel)) : option Grid := fold_left set_o ws g.
(** for i := 0; i < n; i++ as integers *)
Definition zseq (n : nat) : list Z := map Z.of_nat (seq 0 n).

(** func posBox (coding/qr.go:763-796): assignments for upper left (x, y) in a grid of side n. *)
Definition posBox (n : Z) (x y : Z) : list (Z * Z * Pixel) :=
  flat_map (fun dy => map (fun dx =>
      (y + dy, x + dx, pix Position ((dx =? 0) || (dx =? 6) || (dy =? 0) || (dy =? 6)
                                     || ((2 <=? dx) && (dx <=? 4) && (2 <=? dy) && (dy <=? 4))))%Z) (zseq 7)) (zseq 7)
  ++ flat_map (fun d => let dy := (d - 1)%Z in
       if ((0 <=? y + dy) && (y + dy <? n))%Z
       then (if (x >? 0)%Z then [(y + dy, x - 1, pix Position false)]%Z else [])
            ++ (if (x + 7 <? n)%Z then [(y + dy, x + 7, pix Position false)]%Z else [])
       else []) (zseq 9)
  ++ flat_map (fun d => let dx := (d - 1)%Z in
       if ((0 <=? x + dx) && (x + dx <? n))%Z
       then (if (y >? 0)%Z then [(y - 1, x + dx, pix Position false)]%Z else [])
            ++ (if (y + 7 <? n)%Z then [(y + 7, x + dx, pix Position false)]%Z else [])
       else []) (zseq 9).
(** func alignBox (coding/qr.go:799-811). *)
Definition alignBox (x y : Z) : list (Z * Z * Pixel) :=
  flat_map (fun dy => map (fun dx =>
      (y + dy, x + dx, pix Alignment ((dx =? 0) || (dx =? 4) || (dy =? 0) || (dy =? 4) || ((dx =? 2) && (dy =? 2))))%Z)
      (zseq 5)) (zseq 5).
(** The positions the loops of vplan give x and y: 4, apos, apos+astride, ... while +5 < siz; siz rounds are enough
    (astride >= 1 for every version). *)
Fixpoint apositions (fuel : nat) (x siz apos astride : Z) : list Z :=
  match fuel with
  | O => []
  | S f => if (x + 5 <? siz)%Z then x :: apositions f (if x =? 4 then apos else x + astride)%Z siz apos astride else []
  end.
(** func vplan (coding/qr.go:532-600): the pixel map of a version, None = error or panic. *)
Definition vplan (v : nat) : option Grid :=
  if (v <? 1) || (40 <? v) then None
  else
    let siz := 17 + v * 4 in
    let zs := Z.of_nat siz in
    let timing := flat_map (fun i => let p := pix Timing (Z.even i) in [(i, 6%Z, p); (6%Z, i, p)]) (zseq siz) in
    let as_ := apositions siz 4 zs (Z.of_nat (apos (vt v))) (Z.of_nat (astride (vt v))) in
    let align := flat_map (fun x => flat_map (fun y =>
        if ((x <? 7) && (y <? 7)) || ((x <? 7) && (y + 5 >=? zs - 7)) || ((x + 5 >=? zs - 7) && (y <? 7)) then []
        else alignBox x y)%Z as_) as_ in
    let vers := if N.eqb (pattern (vt v)) 0 then []
      else flat_map (fun x => flat_map (fun y =>
             let p := pix PVersion (N.testbit (pattern (vt v)) (N.of_nat (3 * x + y))) in
             [(zs - 11 + Z.of_nat y, Z.of_nat x, p); (Z.of_nat x, zs - 11 + Z.of_nat y, p)]%Z) (seq 0 3)) (seq 0 6) in
    sets (Some (grid siz))
         (timing ++ posBox zs 0 0 ++ posBox zs (zs - 7) 0 ++ posBox zs 0 (zs - 7) ++ align ++ vers
          ++ [(zs - 8, 8, pix Unused true)]%Z).

(** The BCH division of fplan (coding/qr.go:608-613): for i = 14..10. *)
Fixpoint fdiv (i : nat) (rem : N) : N :=
  match i with
  | O => rem
  | S j => fdiv j (if N.testbit rem (N.of_nat (10 + j)) then N.lxor rem (N.shiftl 0x537 (N.of_nat j)) else rem)
  end.
Definition format_bits (l m : nat) : N :=
  let fb := N.lor (N.shiftl (N.lxor (N.of_nat l) 1) 13) (N.shiftl (N.of_nat m) 10) in N.lor fb (fdiv 5 fb).
(** func fplan (coding/qr.go:603-645): the assignments. *)
Definition fplan_sets (siz : nat) (l m : nat) : list (Z * Z * Pixel) :=
  let zs := Z.of_nat siz in
  flat_map (fun i =>
    let iz := Z.of_nat i in
    let inv := N.testbit 0x5412 (N.of_nat i) in
    let p := {| role := Format; black := xorb (N.testbit (format_bits l m) (N.of_nat i)) inv; invert := inv; offset := i |} in
    [ (if (i <? 6)%nat then (iz, 8, p) else if (i <? 8)%nat then (iz + 1, 8, p) else if (i <? 9)%nat then (8, 7, p) else (8, 14 - iz, p))%Z;
      (if (i <? 8)%nat then (8, zs - 1 - iz, p) else (zs - 1 - (14 - iz), 8, p))%Z ]) (seq 0 15).
Definition fplan (l m : nat) (g : Grid) : option Grid := sets (Some g) (fplan_sets (length g) l m).

(** The block split of lplan (coding/qr.go:673-687): the list of blocks, and what is left. *)
Fixpoint split_blocks {A} (todo i nb nd extra : nat) (l : list A) : option (list (list A) * list A) :=
  match todo with
  | O => Some ([], l)
  | S t =>
      let n := (if nb - extra <=? i then S nd else nd) * 8 in
      if length l <? n then None
      else match split_blocks t (S i) nb nd extra (skipn n l) with
           | None => None
           | Some (bs, rest) => Some (firstn n l :: bs, rest)
           end
  end.
(** One of the two loops of coding/qr.go:693-700, 701-708: byte i of every block that has it, i = 0..n-1. *)
Definition rounds {A} (n : nat) (blocks : list (list A)) : list A :=
  flat_map (fun i => flat_map (fun b => if i * 8 <? length b then firstn 8 (skipn (i * 8) b) else []) blocks) (seq 0 n).
(** coding/qr.go:652-711: the pixels in symbol order. *)
Definition lplan_bits (v l : nat) : option (list Pixel) :=
  let nb := nblock v l in
  let ne := ncheck v l in
  let total := vbytes (vt v) - ne * nb in
  let nde := total / nb in
  let extra := total mod nb in
  let dataBits := (nde * nb + extra) * 8 in
  let checkBits := ne * nb * 8 in
  let data := map (opix RData) (seq 0 dataBits) in
  let check := map (opix RCheck) (seq dataBits checkBits) in
  match split_blocks nb 0 nb nde extra data, split_blocks nb 0 nb ne 0 check with
  | Some (dataList, []), Some (checkList, []) =>
      let bits := rounds (nde + 1) dataList ++ rounds ne checkList in
      if length bits =? dataBits + checkBits then Some bits else None
  | _, _ => None
  end.
(** One test-and-assign of the sweep (coding/qr.go:725-730). *)
Definition fill1 (s : option (Grid * list Pixel)) (yx : Z * Z) : option (Grid * list Pixel) :=
  match s with
  | None => None
  | Some (g, src) =>
      match getp g (fst yx) (snd yx) with
      | None => None
      | Some p =>
          if is_free p then
            match src with
            | [] => None
            | q :: src' => match setp g (fst yx) (snd yx) q with None => None | Some g' => Some (g', src') end
            end
          else Some (g, src)
      end
  end.
Definition column (ys : list Z) (x : Z) (s : option (Grid * list Pixel)) : option (Grid * list Pixel) :=
  fold_left (fun s y => fill1 (fill1 s (y, x - 1)%Z) (y, x - 2)%Z) ys s.
(** The sweep (coding/qr.go:717-746): up a pair of columns, then down the next. *)
Fixpoint sweep (fuel : nat) (siz : nat) (x : Z) (s : option (Grid * list Pixel)) : option (Grid * list Pixel) :=
  match fuel with
  | O => s
  | S f =>
      if (x <=? 0)%Z then s
      else
        let s1 := column (rev (zseq siz)) x s in
        let x1 := (x - 2)%Z in
        let x2 := if (x1 =? 7)%Z then (x1 - 1)%Z else x1 in
        let s2 := column (zseq siz) x2 s1 in
        sweep f siz (x2 - 2)%Z s2
  end.
Definition lplan (v l : nat) (g : Grid) : option Grid :=
  match lplan_bits v l with
  | None => None
  | Some bits =>
      match sweep (length g) (length g) (Z.of_nat (length g)) (Some (g, bits ++ repeat (pix RExtra false) 7)) with
      | None => None
      | Some (g', _) => Some g'
      end
  end.

(** var mfunc and Mask.Invert (coding/qr.go:324-340) for masks 0..7. *)
Definition Invert (m : nat) (i j : nat) : bool :=
  match m with
  | 0 => (i + j) mod 2 =? 0
  | 1 => i mod 2 =? 0
  | 2 => j mod 3 =? 0
  | 3 => (i + j) mod 3 =? 0
  | 4 => (i / 2 + j / 3) mod 2 =? 0
  | 5 => (i * j) mod 2 + (i * j) mod 3 =? 0
  | 6 => ((i * j) mod 2 + (i * j) mod 3) mod 2 =? 0
  | _ => ((i * j) mod 3 + (i + j) mod 2) mod 2 =? 0
  end.
Definition flip (p : Pixel) : Pixel := {| role := role p; black := negb (black p); invert := negb (invert p); offset := offset p |}.
Definition maskable (p : Pixel) : bool := match role p with RData | RCheck | RExtra => true | _ => false end.
Fixpoint mapi {A B} (f : nat -> A -> B) (i : nat) (l : list A) : list B :=
  match l with [] => [] | x :: l' => f i x :: mapi f (S i) l' end.
(** func mplan (coding/qr.go:750-760). *)
Definition mplan (m : nat) (g : Grid) : Grid :=
  mapi (fun y row => mapi (fun x p => if maskable p && Invert m y x then flip p else p) 0 row) 0 g.

(** type Plan (coding/qr.go:344-354) and NewPlan (358-373). *)
Record Plan := { p_version : nat; p_level : nat; p_mask : nat; p_DataBytes : nat; p_CheckBytes : nat; p_Blocks : nat; p_Pixel : Grid }.
Definition NewPlan (v l m : nat) : option Plan :=
  match vplan v with
  | None => None
  | Some g0 =>
      match fplan l m g0 with
      | None => None
      | Some g1 =>
          match lplan v l g1 with
          | None => None
          | Some g2 => Some {| p_version := v; p_level := l; p_mask := m;
                               p_DataBytes := vbytes (vt v) - ncheck v l * nblock v l;
                               p_CheckBytes := ncheck v l * nblock v l; p_Blocks := nblock v l; p_Pixel := mplan m g2 |}
          end
      end
  end.

(** ** Drawing *)
(** type Code (coding/qr.go:306-310). *)
Record Code := { Bitmap : list N; Size : nat; Stride : nat }.
(** func (c *Code) Black (coding/qr.go:312-315, qr.go:74-77). *)
Definition Black (c : Code) (x y : Z) : bool :=
  ((0 <=? x) && (x <? Z.of_nat (Size c)) && (0 <=? y) && (y <? Z.of_nat (Size c)))%Z
  && N.testbit (nth (Z.to_nat y * Stride c + Z.to_nat x / 8) (Bitmap c) 0%N) (N.of_nat (7 - Z.to_nat x mod 8)).
(** bytes[o/8]&(1<<(7-o&7)) != 0; None = index panic. *)
Definition bit_at (bytes : list N) (o : nat) : option bool :=
  option_map (fun b => N.testbit b (N.of_nat (7 - o mod 8))) (nth_error bytes (o / 8)).
(** One pixel (coding/qr.go:447-457): is it drawn black? *)
Definition drawn (bytes : list N) (p : Pixel) : option bool :=
  match role p with
  | RData | RCheck => option_map (xorb (black p)) (bit_at bytes (offset p))
  | _ => Some (black p)
  end.
(** One row (coding/qr.go:446-458): crow starts as Stride zero bytes. *)
Fixpoint draw_row (bytes : list N) (x : nat) (row : list Pixel) (crow : list N) : option (list N) :=
  match row with
  | [] => Some crow
  | p :: row' =>
      match drawn bytes p with
      | None => None
      | Some b =>
          draw_row bytes (S x) row'
            (if b then upd crow (x / 8) (N.lor (nth (x / 8) crow 0%N) (N.shiftl 1 (N.of_nat (7 - x mod 8)))) else crow)
      end
  end.
(** The rows one after another; crow = crow[c.Stride:] moves to the next Stride bytes. *)
Fixpoint draw_rows (bytes : list N) (stride : nat) (rows : Grid) : option (list N) :=
  match rows with
  | [] => Some []
  | row :: rows' =>
      match draw_row bytes 0 row (repeat 0%N stride), draw_rows bytes stride rows' with
      | Some r, Some rs => Some (r ++ rs)
      | _, _ => None
      end
  end.
Inductive result (A : Type) := Ok (a : A) | Error | Panic.
Arguments Ok {A}. Arguments Error {A}. Arguments Panic {A}.
(** The encoding loop (coding/qr.go:428-434); None = error. *)
Fixpoint encode_all (v : nat) (text : list Encoding) (b : Bits) : option Bits :=
  match text with
  | [] => Some b
  | e :: rest => if Check e then encode_all v rest (EncodeE e b v) else None
  end.
(** func (p *Plan) Encode (coding/qr.go:427-462). *)
Definition PlanEncode (p : Plan) (text : list Encoding) : result Code :=
  match encode_all (p_version p) text bits0 with
  | None => Error
  | Some b =>
      if p_DataBytes p * 8 <? nbit b then Error
      else
        match AddCheckBytes b (p_version p) (p_level p) with
        | None => Panic
        | Some b2 =>
            match Bytes b2 with
            | None => Panic
            | Some bytes =>
                let siz := length (p_Pixel p) in
                let stride := (siz + 7) / 8 * 8 in
                match draw_rows bytes stride (p_Pixel p) with
                | None => Panic
                | Some bm => Ok {| Bitmap := bm; Size := siz; Stride := stride |}
                end
            end
        end
  end.

(** ** qrterminal/qrcode/qr.go *)
(** The choice of encoding (qr.go:28-36). *)
Definition choose (text : list N) : Encoding :=
  if Check (Num text) then Num text else if Check (Alpha text) then Alpha text else Str text.
(** The choice of version (qr.go:38-48); None = "text too long". *)
Fixpoint pick_version (todo v : nat) (e : Encoding) (l : nat) : option nat :=
  match todo with
  | O => None
  | S t => if EBits e v <=? DataBytes v l * 8 then Some v else pick_version t (S v) e l
  end.
(** func Encode (qr.go:23-62); the Scale field (8) is not kept. *)
Definition Encode (text : list N) (l : nat) : result Code :=
  let e := choose text in
  match pick_version 40 1 e l with
  | None => Error
  | Some v =>
      match NewPlan v l 0 with
      | None => Panic
      | Some p => PlanEncode p [e]
      end
  end.
