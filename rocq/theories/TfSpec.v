(** * Threefish, from the Skein 1.3 specification (section 3.3).

    Written from the paper, not from the Go code: generic key schedule, MIX, word
    permutation and rotation tables.  The word operations are a record so that the same
    text can be run on 64-bit words ([word64]) and, in the proofs, on symbolic terms. *)
From Coq Require Import ZArith List Bool.
Import ListNotations.
Open Scope Z_scope.

Record word_ops := {
  W : Type;
  w_const : Z -> W;
  w_add : W -> W -> W;
  w_sub : W -> W -> W;
  w_xor : W -> W -> W;
  w_rotl : Z -> W -> W;
  w_rotr : Z -> W -> W }.

(** 64-bit words: addition modulo 2^64, exclusive or, rotation by r in 1..63. *)
Definition word64 : word_ops := {|
  W := Z;
  w_const c := c mod 2 ^ 64;
  w_add x y := (x + y) mod 2 ^ 64;
  w_sub x y := (x - y) mod 2 ^ 64;
  w_xor := Z.lxor;
  w_rotl r x := Z.lor (Z.shiftl x r mod 2 ^ 64) (Z.shiftr x (64 - r));
  w_rotr r x := Z.lor (Z.shiftr x r) (Z.shiftl x (64 - r) mod 2 ^ 64) |}.

(** The parameters of one member of the family. *)
Record tf_params := {
  nw : nat;                (* number of state words *)
  nr : nat;                (* number of rounds *)
  rot : list (list Z);     (* rotation constants R_{d mod 8, j} *)
  perm : list nat }.       (* the permutation pi *)

(** Skein 1.3, Table 3 (pi), Table 4 (R) and Table 2 (rounds). *)
Definition tf256 : tf_params := {|
  nw := 4; nr := 72;
  rot := [[14; 16]; [52; 57]; [23; 40]; [5; 37]; [25; 33]; [46; 12]; [58; 22]; [32; 32]];
  perm := [0; 3; 2; 1]%nat |}.

Definition tf512 : tf_params := {|
  nw := 8; nr := 72;
  rot := [[46; 36; 19; 37]; [33; 27; 14; 42]; [17; 49; 36; 39]; [44; 9; 54; 56];
          [39; 30; 34; 24]; [13; 50; 10; 17]; [25; 29; 39; 43]; [8; 35; 56; 22]];
  perm := [2; 1; 4; 7; 6; 5; 0; 3]%nat |}.

Definition tf1024 : tf_params := {|
  nw := 16; nr := 80;
  rot := [[24; 13;  8; 47;  8; 17; 22; 37]; [38; 19; 10; 55; 49; 18; 23; 52];
          [33;  4; 51; 13; 34; 41; 59; 17]; [ 5; 20; 48; 41; 47; 28; 16; 25];
          [41;  9; 37; 31; 12; 47; 44; 30]; [16; 34; 56; 51;  4; 53; 42; 41];
          [31; 44; 47; 46; 19; 42; 44; 25]; [ 9; 48; 35; 52; 23; 31; 37; 20]];
  perm := [0; 9; 2; 13; 6; 11; 4; 15; 10; 7; 12; 3; 14; 5; 8; 1]%nat |}.

Section Spec.
  Variable A : word_ops.
  Variable p : tf_params.
  Notation "'word'" := (W A).
  Definition w0 : word := w_const A 0.

  (** Key schedule.  [k] is the extended key k_0..k_Nw, [t] the extended tweak t_0,t_1,t_2. *)
  Definition subkey (k t : list word) (s : nat) : list word :=
    map (fun i =>
           let ki := nth ((s + i) mod (nw p + 1)) k w0 in
           if Nat.eqb i (nw p - 3) then w_add A ki (nth (s mod 3) t w0)
           else if Nat.eqb i (nw p - 2) then w_add A ki (nth ((s + 1) mod 3) t w0)
           else if Nat.eqb i (nw p - 1) then w_add A ki (w_const A (Z.of_nat s))
           else ki)
        (seq 0 (nw p)).

  Definition map2 (f : word -> word -> word) (x y : list word) : list word :=
    map (fun q => f (fst q) (snd q)) (combine x y).

  (** MIX on consecutive pairs, and its inverse. *)
  Fixpoint mix (r : list Z) (v : list word) : list word :=
    match v, r with
    | x0 :: x1 :: v', c :: r' =>
        let y0 := w_add A x0 x1 in
        let y1 := w_xor A (w_rotl A c x1) y0 in
        y0 :: y1 :: mix r' v'
    | _, _ => v
    end.
  Fixpoint unmix (r : list Z) (v : list word) : list word :=
    match v, r with
    | y0 :: y1 :: v', c :: r' =>
        let x1 := w_rotr A c (w_xor A y1 y0) in
        let x0 := w_sub A y0 x1 in
        x0 :: x1 :: unmix r' v'
    | _, _ => v
    end.

  (** v_{d+1,i} = f_{d,pi(i)}, and its inverse. *)
  Definition permute (v : list word) : list word := map (fun i => nth i v w0) (perm p).
  Fixpoint position (i : nat) (l : list nat) : nat :=
    match l with
    | [] => 0
    | j :: l' => if Nat.eqb i j then 0 else S (position i l')
    end.
  Definition unpermute (v : list word) : list word :=
    map (fun i => nth (position i (perm p)) v w0) (seq 0 (nw p)).

  Definition round (k t : list word) (v : list word) (d : nat) : list word :=
    let e := if Nat.eqb (d mod 4) 0 then map2 (w_add A) v (subkey k t (d / 4)) else v in
    permute (mix (nth (d mod 8) (rot p) []) e).
  Definition unround (k t : list word) (v : list word) (d : nat) : list word :=
    let e := unmix (nth (d mod 8) (rot p) []) (unpermute v) in
    if Nat.eqb (d mod 4) 0 then map2 (w_sub A) e (subkey k t (d / 4)) else e.

  Definition enc_ext (k t v : list word) : list word :=
    map2 (w_add A) (fold_left (round k t) (seq 0 (nr p)) v) (subkey k t (nr p / 4)).
  Definition dec_ext (k t v : list word) : list word :=
    fold_left (unround k t) (rev (seq 0 (nr p))) (map2 (w_sub A) v (subkey k t (nr p / 4))).

  (** Extended key and tweak: C240 and the two parity words. *)
  Definition C240 : Z := 0x1BD11BDAA9FC1A22.
  Definition extend_key (key : list word) : list word :=
    key ++ [fold_left (w_xor A) key (w_const A C240)].
  Definition extend_tweak (t0 t1 : word) : list word := [t0; t1; w_xor A t0 t1].

  (** The block function. *)
  Definition threefish_encrypt (key : list word) (t0 t1 : word) (block : list word) : list word :=
    enc_ext (extend_key key) (extend_tweak t0 t1) block.
  Definition threefish_decrypt (key : list word) (t0 t1 : word) (block : list word) : list word :=
    dec_ext (extend_key key) (extend_tweak t0 t1) block.
End Spec.
