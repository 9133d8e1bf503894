(** * Specification of variable references in the root path (os.ExpandEnv), independent of the model's functions. *)
From Coq Require Import String.
From Coq Require Import ZArith List.
From Verif Require Import GoStr.
Import ListNotations.
Open Scope Z_scope.

(** A character of a variable's name: letter, digit or underscore (ASCII). *)
Definition name_char (c : Z) : Prop := 48 <= c <= 57 \/ 65 <= c <= 90 \/ 97 <= c <= 122 \/ c = 95.
(** A one-character shell variable: a digit or one of * # $ @ ! ? - *)
Definition one_char_var (c : Z) : Prop := 48 <= c <= 57 \/ In c (lit "*#$@!?-").
Definition begins (P : Z -> Prop) (s : str) : Prop := match s with [] => False | c :: _ => P c end.

(** [expands env s out]: out is s with every reference replaced by the variable's value. *)
Inductive expands (env : str -> str) : str -> str -> Prop :=
  | ex_end : expands env [] []
  | ex_char c s out : c <> 36 -> expands env s out -> expands env (c :: s) (c :: out)
  (* $NAME : the longest name, not beginning with a digit *)
  | ex_name n s out : begins name_char n -> ~ begins one_char_var n -> Forall name_char n -> ~ begins name_char s ->
      expands env s out -> expands env (lit "$" ++ n ++ s) (env n ++ out)
  (* $1, $$, ... : one character *)
  | ex_one c s out : one_char_var c -> expands env s out -> expands env (lit "$" ++ [c] ++ s) (env [c] ++ out)
  (* ${NAME} : whatever is between the braces *)
  | ex_braces n s out : n <> [] -> ~ In 125 n -> expands env s out -> expands env (lit "${" ++ n ++ lit "}" ++ s) (env n ++ out)
  (* ${} disappears *)
  | ex_empty s out : expands env s out -> expands env (lit "${}" ++ s) out
  (* ${ that is never closed: only these two characters disappear *)
  | ex_unclosed s out : ~ In 125 s -> expands env s out -> expands env (lit "${" ++ s) out
  (* $ before anything else, or at the end, stays *)
  | ex_dollar s out : ~ begins (fun c => name_char c \/ one_char_var c \/ c = 123) s -> expands env s out -> expands env (lit "$" ++ s) (lit "$" ++ out).
