(** * What a form asks for (documented in cmds/generate.go:18 and 26-34). *)
From Coq Require Import ZArith List.
Import ListNotations.
Open Scope Z_scope.

Definition lower (c : Z) : Prop := 97 <= c <= 122.
Definition upper (c : Z) : Prop := 65 <= c <= 90.
Definition digit (c : Z) : Prop := 48 <= c <= 57.
(** A printable ASCII character that is none of these. *)
Definition symbol (c : Z) : Prop := 33 <= c <= 126 /\ ~ lower c /\ ~ upper c /\ ~ digit c.
Definition separator (c : Z) : Prop := c = 45 \/ c = 95 \/ c = 47 \/ c = 92 \/ c = 35.   (* - _ / \ # *)

(** [follows A form out]: [out] is the form filled in; [A] says what 'a' may become. *)
Inductive follows (A : Z -> Prop) : list Z -> list Z -> Prop :=
| F_nil : follows A [] []
| F_x c f o : lower c -> follows A f o -> follows A (120 :: f) (c :: o)
| F_X c f o : upper c -> follows A f o -> follows A (88 :: f) (c :: o)
| F_n c f o : digit c -> follows A f o -> follows A (110 :: f) (c :: o)
| F_s c f o : symbol c -> follows A f o -> follows A (115 :: f) (c :: o)
| F_a c f o : A c -> follows A f o -> follows A (97 :: f) (c :: o)
| F_sep c f o : separator c -> follows A f o -> follows A (c :: f) (c :: o)
| F_other c f o : c <> 120 -> c <> 88 -> c <> 110 -> c <> 115 -> c <> 97 -> ~ separator c ->
    follows A f o -> follows A (c :: f) o.
