(** * A tiny straight-line language for the unrolled Threefish bodies.

    The Go methods threefish{256,512,1024}.encrypt/decrypt
    (crypter/crypter256.go:66-911, crypter512.go:66-1730, crypter1024.go:66-3724)
    are straight-line code over uint64 locals.  The generated files TfCode*.v hold
    those bodies, one statement per Go line and in the same order; this file gives the
    language and its semantics (uint64 arithmetic wraps at 2^64). *)
From Coq Require Import ZArith List Bool.
Import ListNotations.
Open Scope Z_scope.

(** uint64 arithmetic of Go: all results are taken modulo 2^64. *)
Definition W64 : Z := 2 ^ 64.
Definition wrap (x : Z) : Z := x mod W64.
Definition wadd (x y : Z) : Z := wrap (x + y).
Definition wsub (x y : Z) : Z := wrap (x - y).
Definition wxor (x y : Z) : Z := Z.lxor x y.
Definition wor  (x y : Z) : Z := Z.lor x y.
Definition wshl (x : Z) (n : Z) : Z := wrap (Z.shiftl x n).
Definition wshr (x : Z) (n : Z) : Z := Z.shiftr x n.
Definition is_word (x : Z) : Prop := 0 <= x < W64.

(** Variables of the Go bodies: the locals bN, kN, tN, tmp; the slices input and output;
    the struct fields tf.expandedKey and tf.expandedTweak. *)
Inductive var :=
| B (i : nat) | K (i : nat) | T (i : nat) | Tmp
| In (i : nat) | Out (i : nat) | XK (i : nat) | XT (i : nat).

Inductive expr :=
| EV (v : var)
| EC (c : Z)
| EAdd (a b : expr) | EXor (a b : expr) | EOr (a b : expr)
| EShl (a : expr) (n : Z) | EShr (a : expr) (n : Z).
Coercion EV : var >-> expr.

Inductive stmt :=
| Assign (v : var) (e : expr)     (* v = e   (also v := e) *)
| AddAssign (v : var) (e : expr)  (* v += e *)
| SubAssign (v : var) (e : expr). (* v -= e *)

Declare Scope tf_scope.
Delimit Scope tf_scope with tf.
Notation "v '<-' e" := (Assign v e) (at level 95, e at level 94) : tf_scope.
Notation "v '+=' e" := (AddAssign v e) (at level 95, e at level 94) : tf_scope.
Notation "v '-=' e" := (SubAssign v e) (at level 95, e at level 94) : tf_scope.
Notation "a [+] b" := (EAdd a b) (at level 50, left associativity) : tf_scope.
Notation "a [^] b" := (EXor a b) (at level 50, left associativity) : tf_scope.
Notation "a [|] b" := (EOr a b) (at level 50, left associativity) : tf_scope.
Notation "a [<<] n" := (EShl a n%Z) (at level 40, left associativity) : tf_scope.
Notation "a [>>] n" := (EShr a n%Z) (at level 40, left associativity) : tf_scope.

(** Environments: the value of every variable. *)
Definition env := var -> Z.

Definition var_eqb (u v : var) : bool :=
  match u, v with
  | B i, B j | K i, K j | T i, T j | In i, In j | Out i, Out j | XK i, XK j | XT i, XT j =>
      Nat.eqb i j
  | Tmp, Tmp => true
  | _, _ => false
  end.

Definition upd (e : env) (v : var) (z : Z) : env :=
  fun u => if var_eqb u v then z else e u.

Fixpoint eval (r : env) (e : expr) : Z :=
  match e with
  | EV v => r v
  | EC c => wrap c
  | EAdd a b => wadd (eval r a) (eval r b)
  | EXor a b => wxor (eval r a) (eval r b)
  | EOr a b => wor (eval r a) (eval r b)
  | EShl a n => wshl (eval r a) n
  | EShr a n => wshr (eval r a) n
  end.

Definition exec1 (r : env) (s : stmt) : env :=
  match s with
  | Assign v e => upd r v (eval r e)
  | AddAssign v e => upd r v (wadd (r v) (eval r e))
  | SubAssign v e => upd r v (wsub (r v) (eval r e))
  end.

Definition exec (p : list stmt) (r : env) : env := fold_left exec1 p r.

(** Calling a body: input block, expandedKey and expandedTweak as lists; locals start
    undefined (0; every local is assigned before use in the Go code, or it would not
    compile); the result is output[0..n-1]. *)
Definition call_env (input xk xt : list Z) : env :=
  fun v => match v with
           | In i => nth i input 0
           | XK i => nth i xk 0
           | XT i => nth i xt 0
           | _ => 0
           end.
Definition outputs (n : nat) (r : env) : list Z := map (fun i => r (Out i)) (seq 0 n).
Definition run_body (n : nat) (body : list stmt) (input xk xt : list Z) : list Z :=
  outputs n (exec body (call_env input xk xt)).
