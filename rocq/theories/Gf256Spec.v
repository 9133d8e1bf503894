(** * GF(2)[x] on binary naturals, residue fields and Reed-Solomon codes, independent of the code.

    A natural number is the polynomial over GF(2) whose coefficients are its bits; addition is
    exclusive or. *)
From Coq Require Import NArith List.
Import ListNotations.
Open Scope N_scope.

(** Carry-less product. *)
Fixpoint clmul_pos (x : positive) (y : N) : N :=
  match x with
  | xH => y
  | xO x' => N.double (clmul_pos x' y)
  | xI x' => N.lxor y (N.double (clmul_pos x' y))
  end.
Definition clmul (x y : N) : N := match x with N0 => 0 | Npos p => clmul_pos p y end.
Fixpoint clpow (x : N) (k : nat) : N := match k with O => 1 | S k' => clmul (clpow x k') x end.

(** Congruence modulo a polynomial. *)
Definition cong (poly a b : N) : Prop := exists q, N.lxor a b = clmul q poly.
(** A polynomial of degree 8 that is not a product of two polynomials of positive degree. *)
Definition irreducible8 (poly : N) : Prop :=
  256 <= poly < 512 /\ forall a b, 2 <= a -> 2 <= b -> clmul a b <> poly.
(** Every non-zero residue is a power of alpha. *)
Definition generates (poly alpha : N) : Prop :=
  forall b, 1 <= b < 256 -> exists k, cong poly (clpow alpha k) b.

(** ** Reed-Solomon.  A field on bytes is given by its multiplication and the powers of alpha. *)
Section RS.
  Variable fmul : N -> N -> N.
  (** Value at r of the polynomial with the given coefficients, most significant first. *)
  Definition horner (p : list N) (r : N) : N := fold_left (fun acc c => N.lxor (fmul acc r) c) p 0.
End RS.
(** Number of positions where two byte strings differ. *)
Fixpoint hamming (a b : list N) : nat :=
  match a, b with
  | x :: a', y :: b' => ((if N.eqb x y then 0 else 1) + hamming a' b')%nat
  | _, _ => 0%nat
  end.
Definition byteb (b : N) : Prop := b < 256.

(** ** Polynomials over the bytes: coefficient lists, most significant first. *)
Section Poly.
  Variable fmul : N -> N -> N.
  Fixpoint padd (p q : list N) : list N :=
    match p, q with a :: p', b :: q' => N.lxor a b :: padd p' q' | _, _ => [] end.
  (** Schoolbook product of q and a non-empty g: length q + length g - 1 coefficients. *)
  Fixpoint pmul (q g : list N) : list N :=
    match q with
    | [] => repeat 0 (length g - 1)
    | c :: q' => padd (map (fmul c) g ++ repeat 0 (length q')) (0 :: pmul q' g)
    end.
  (** (x + r1)(x + r2)... *)
  Definition from_roots (rs : list N) : list N := fold_left (fun acc r => pmul [1; r] acc) rs [1].
End Poly.
