(** * Model of Save and Load of closestmatch/closestmatch.go.

    encoding/json and compress/gzip are modelled by what they document: an object is written with its keys sorted bytewise (the
    sort is by the unconverted key), every string is written with each invalid byte replaced by U+FFFD, an object is read
    into a map entry by entry, a later entry replacing an earlier one of the same key.  Numbers (sizes, ids, counts) survive.  The
    text of the JSON document is not modelled, only its tree; the compressed stream only as complete or cut short. *)
From Coq Require Import ZArith NArith Arith List Bool Permutation.
From Verif Require Import Utf8 GoStr CmModel.
Import ListNotations.
Open Scope nat_scope.

(** encoding/json: a string as it comes out of writing and reading it: invalid bytes become U+FFFD. *)
Definition coerce (s : str) : str := utf8 (runes s).
(** Go's < on strings. *)
Fixpoint before (a b : str) : Prop :=
  match a, b with
  | _, [] => False
  | [], _ :: _ => True
  | x :: a', y :: b' => (x < y)%Z \/ (x = y /\ before a' b')
  end.
(** The document: the exported fields of ClosestMatch (closestmatch.go:16-21; mux is not exported). *)
Record Doc := { dSizes : list nat; dSub : list (str * list N); dID : list (N * (str * nat)) }.
(** enc.Encode(cm) (closestmatch.go:95). *)
Definition Encode (cm : CM) (d : Doc) : Prop :=
  dSizes d = SubstringSizes cm
  /\ (exists entries, Permutation entries (SubstringToID cm)
        /\ (forall l1 k l2 k' l3, map fst entries = l1 ++ k :: l2 ++ k' :: l3 -> before k k')
        /\ Forall2 (fun e w => fst w = coerce (fst e) /\ Permutation (snd w) (snd e)) entries (dSub d))
  /\ Permutation (dID d) (map (fun e => (fst e, (coerce (fst (snd e)), snd (snd e)))) (ID cm)).
(** Decode into new(ClosestMatch) (closestmatch.go:51, 64). *)
Definition Decode (d : Doc) : CM :=
  {| SubstringSizes := dSizes d;
     SubstringToID := fold_left (fun m e => put str_dec m (fst e) (snd e)) (dSub d) [];
     ID := fold_left (fun m e => put N.eq_dec m (fst e) (snd e)) (dID d) [] |}.

(** ** Files *)
(** What is on disk: nothing, a compressed document, or a beginning of one. *)
Inductive File := NoFile | Cut (d : Doc) | Whole (d : Doc).
(** func (cm *ClosestMatch) Save (closestmatch.go:85-96).  The file before, the file after, and whether nil was returned.  The
    compressor passes a part of its output on while Encode runs and the rest when it is closed by the deferred call, whose
    error is dropped. *)
Inductive Save (cm : CM) (old : File) : File -> bool -> Prop :=
  | save_create : Save cm old old false                                   (* os.Create fails *)
  | save_encode d : Encode cm d -> Save cm old (Cut d) false              (* a write during Encode fails *)
  | save_close d : Encode cm d -> Save cm old (Cut d) true                (* a write during w.Close fails: ignored *)
  | save_done d : Encode cm d -> Save cm old (Whole d) true.
(** func Load (closestmatch.go:50-66): the index and whether err is nil.  A file cut short is noticed by gzip or json, unless only
    the end of the stream behind the document is missing.  On an error the index may hold any part read before. *)
Definition new_cm : CM := {| SubstringSizes := []; SubstringToID := []; ID := [] |}.
Inductive Load : File -> CM -> bool -> Prop :=
  | load_nofile f : Load f new_cm false                                   (* os.Open or gzip.NewReader fails *)
  | load_read f cm : f <> NoFile -> Load f cm false                       (* reading or decoding fails on the way *)
  | load_tail d : Load (Cut d) (Decode d) true
  | load_whole d : Load (Whole d) (Decode d) true.
