(** * Model of qrterminal/qrcode/gf256/gf256.go.  Bytes and small ints are N. *)
From Coq Require Import NArith ZArith List Bool.
Import ListNotations.
Open Scope N_scope.

(** type Field (gf256.go:11-14). *)
Record Field := { f_log : list N; f_exp : list N }.

(** func nbit (gf256.go:57-63): number of significant bits. *)
Definition nbit (p : N) : nat := N.size_nat p.

(** func polyDiv (gf256.go:66-75): the loop for np = nq+m-1+1 .. nq; [pd (S m)] is the iteration with
    np - nq = m.  (q = 0 is never passed.) *)
Fixpoint pd (steps : nat) (p q : N) (nq : nat) : N :=
  match steps with
  | O => p
  | S m =>
      let p' := if N.testbit p (N.of_nat (nq + m - 1)) then N.lxor p (N.shiftl q (N.of_nat m)) else p in
      pd m p' q nq
  end.
Definition polyDiv (p q : N) : N :=
  let np := nbit p in let nq := nbit q in pd (S np - nq) p q nq.

(** func mul (gf256.go:78-91): shift and add; recursion on the bits of x. *)
Fixpoint mul_loop (x : positive) (y z poly : N) : N :=
  let step y := let y' := N.shiftl y 1 in if N.testbit y' 8 then N.lxor y' poly else y' in
  match x with
  | xH => N.lxor z y
  | xO x' => mul_loop x' (step y) z poly
  | xI x' => mul_loop x' (step y) (N.lxor z y) poly
  end.
Definition mul (x y poly : N) : N :=
  match x with N0 => 0 | Npos p => mul_loop p y 0 poly end.

(** func reducible (gf256.go:94-105): trial division by q = 2 .. 2^(np/2+1)-1. *)
Definition reducible (p : N) : bool :=
  let bound := Nat.pow 2 (Nat.div (nbit p) 2 + 1) in
  existsb (fun q => polyDiv p (N.of_nat q) =? 0) (seq 2 (bound - 2)).

Fixpoint upd {A} (l : list A) (i : nat) (v : A) : list A :=
  match l, i with
  | [], _ => []
  | _ :: l', O => v :: l'
  | x :: l', S i' => x :: upd l' i' v
  end.

(** The table loop of NewField (gf256.go:28-37); None = panic (invalid generator). *)
Fixpoint tables (steps : nat) (i : nat) (x alpha poly : N) (exp log : list N) : option (list N * list N) :=
  match steps with
  | O => Some (exp, log)
  | S s =>
      if (x =? 1) && negb (Nat.eqb i 0) then None
      else tables s (S i) (mul x alpha poly) alpha poly
             (upd (upd exp i x) (i + 255) x) (upd log (N.to_nat x) (N.of_nat i))
  end.
(** The checks (gf256.go:39-51). *)
Definition logs_ok (exp log : list N) : bool :=
  forallb (fun i => (nth (N.to_nat (nth i exp 0)) log 0 =? N.of_nat i)
                    && (nth (N.to_nat (nth (i + 255) exp 0)) log 0 =? N.of_nat i)) (seq 0 255)
  && forallb (fun i => nth (N.to_nat (nth i log 0)) exp 0 =? N.of_nat i) (seq 1 255).

(** func NewField (gf256.go:21-54); None = panic.  An alpha outside 0..255 makes x = mul(1,alpha) = alpha
    an index out of the 256-entry log table at i = 1, which panics too. *)
Definition NewField (poly alpha : Z) : option Field :=
  if ((poly <? 256) || (poly >=? 512))%Z then None
  else if reducible (Z.to_N poly) then None
  else if ((alpha <? 0) || (alpha >=? 256))%Z then None
  else
    match tables 255 0 1 (Z.to_N alpha) (Z.to_N poly) (repeat 0 510) (repeat 0 256) with
    | None => None
    | Some (exp, log) =>
        let log := upd log 0 255 in
        if logs_ok exp log then Some {| f_log := log; f_exp := exp |} else None
    end.

(** Add, Exp, Log, Inv, Mul (gf256.go:108-145). *)
Definition Add (x y : N) : N := N.lxor x y.
Definition Exp (f : Field) (e : Z) : N := if (e <? 0)%Z then 0 else nth (Z.to_nat (e mod 255)) (f_exp f) 0.
Definition Log (f : Field) (x : N) : Z := if x =? 0 then (-1)%Z else Z.of_N (nth (N.to_nat x) (f_log f) 0).
Definition Inv (f : Field) (x : N) : N :=
  if x =? 0 then 0 else nth (N.to_nat (255 - nth (N.to_nat x) (f_log f) 0)) (f_exp f) 0.
Definition Mul (f : Field) (x y : N) : N :=
  if (x =? 0) || (y =? 0) then 0
  else nth (N.to_nat (nth (N.to_nat x) (f_log f) 0 + nth (N.to_nat y) (f_log f) 0)) (f_exp f) 0.

(** func (f *Field) gen (gf256.go:157-183).  [gen_pass]: one pass of the inner loop, j = 0..e-1 in
    place (p[j+1] still old), then p[e]. *)
Fixpoint gen_pass (f : Field) (c : N) (p : list N) : list N :=
  match p with
  | [] => []
  | [a] => [Mul f a c]
  | a :: ((b :: _) as p') => N.lxor (Mul f a c) b :: gen_pass f c p'
  end.
Fixpoint gen_loop (f : Field) (steps i : nat) (p : list N) : list N :=
  match steps with
  | O => p
  | S s => gen_loop f s (S i) (gen_pass f (Exp f (Z.of_nat i)) p)
  end.
Definition gen (f : Field) (e : nat) : list N := gen_loop f e 0 (repeat 0 e ++ [1]).
Definition lgen (f : Field) (e : nat) : list N :=
  map (fun c => if c =? 0 then 255 else nth (N.to_nat c) (f_log f) 0) (gen f e).

(** type RSEncoder (gf256.go:149-155) and NewRSEncoder (gf256.go:187-190). *)
Record RSEncoder := { rs_f : Field; rs_c : nat; rs_gen : list N; rs_lgen : list N; rs_p : list N }.
Definition NewRSEncoder (f : Field) (c : nat) : RSEncoder :=
  {| rs_f := f; rs_c := c; rs_gen := gen f c; rs_lgen := lgen f c; rs_p := [] |}.

(** The inner loop of ECC (gf256.go:233-237): q[j] ^= exp[lg] for each lg of lgen[1:]; q at least as
    long as lgen. *)
Fixpoint ecc_inner (exp : list N) (lc : N) (lg : list N) (q : list N) : list N :=
  match lg, q with
  | [], _ => q
  | l :: lg', x :: q' => (if l =? 255 then x else N.lxor x (nth (N.to_nat (lc + l)) exp 0)) :: ecc_inner exp lc lg' q'
  | _, [] => []
  end.
(** The outer loop (gf256.go:226-238) over p[i:], for [steps] values of i; returns all of p. *)
Fixpoint ecc_outer (f : Field) (lg : list N) (steps : nat) (p : list N) : list N :=
  match steps, p with
  | S s, c :: q =>
      if c =? 0 then c :: ecc_outer f lg s q
      else c :: ecc_outer f lg s (ecc_inner (f_exp f) (nth (N.to_nat c) (f_log f) 0) lg q)
  | _, _ => p
  end.
(** Go's copy(dst, src): the first min(len) elements. *)
Definition copy {A} (dst src : list A) : list A := firstn (length dst) src ++ skipn (length src) dst.

(** func (rs *RSEncoder) ECC (gf256.go:194-241): the new check slice and encoder, or None = panic. *)
Definition ECC (rs : RSEncoder) (data check : list N) : option (list N * RSEncoder) :=
  if (length check <? rs_c rs)%nat then None
  else if Nat.eqb (rs_c rs) 0 then Some (check, rs)
  else
    let n := (length data + rs_c rs)%nat in
    let p0 := if (n <=? length (rs_p rs))%nat then rs_p rs else repeat 0 n in
    let p1 := data ++ repeat 0 (length p0 - length data) in
    let p2 := ecc_outer (rs_f rs) (tl (rs_lgen rs)) (length data) p1 in
    Some (copy check (skipn (length data) p2),
          {| rs_f := rs_f rs; rs_c := rs_c rs; rs_gen := rs_gen rs; rs_lgen := rs_lgen rs; rs_p := p2 |}).
