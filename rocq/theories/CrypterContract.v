(** * Vocabulary of the cipher properties: how ciphers are made and which settings are in force. *)
From Coq Require Import ZArith List Bool.
From Verif Require Import TfSpec CrypterModel CrypterSpec.
Import ListNotations.
Open Scope Z_scope.

(** How a cipher came to be: constructor call, the Threefish member it stands for, and the key words
    and tweak words it was given. *)
Inductive created : cipher -> tf_params -> list Z * Z * Z -> Prop :=
| by_New key tw c p t0 t1 :
    params_of (length key) = Some p -> tweak_words tw = Some (t0, t1) -> New key tw = Ret c ->
    created c p (words_of_bytes (nw p) key, t0, t1)
| by_New64 key tw c p t0 t1 :
    params_of_words (length key) = Some p -> tweak_words tw = Some (t0, t1) -> New64 key tw = Ret c ->
    created c p (key, t0, t1)
| by_NewSize size c p :
    params_of (Z.to_nat (size / 8)) = Some p -> NewSize size = Ret c ->
    created c p (repeat 0 (nw p), 0, 0).

(** The key and tweak in force after a history of calls. *)
Definition set1 (p : tf_params) (st : list Z * Z * Z) (o : op) : list Z * Z * Z :=
  match o, st with
  | OpSetKey k, (_, t0, t1) => (firstn (nw p) k, t0, t1)
  | OpSetTweak (Some (a :: b :: _)), (k, _, _) => (k, a, b)
  | _, _ => st
  end.
Definition settings (p : tf_params) (st : list Z * Z * Z) (ops : list op) : list Z * Z * Z :=
  fold_left (set1 p) ops st.

(** Go slices always lie inside their array. *)
Definition wf_op (o : op) : Prop :=
  match o with
  | OpEncrypt m d s | OpDecrypt m d s =>
      (off d + cap d <= length m)%nat /\ (off s + cap s <= length m)%nat
  | OpEncrypt64 m d s | OpDecrypt64 m d s =>
      (fst d + snd d <= length m)%nat /\ (fst s + snd s <= length m)%nat
  | _ => True
  end.

