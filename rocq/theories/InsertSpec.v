(** * Specification vocabulary for histories of inserts (C61). *)
From Coq Require Import String ZArith List.
From Verif Require Import GoStr FsModel RepoSpec CmdSpec.
Import ListNotations.

(** A request: the names of the source file from "/", the category, the entry's name, and the source's content. *)
Record Request := { source : list str; category : str; entry_name : str; text : str }.
(** The request can be served in the store at the names rs of w: the source is a file outside the store, the category a directory of
    the store, and no directory of it has the entry's name. *)
Definition servable (w : World) (rs : list str) (r : Request) : Prop :=
  source r <> [] /\ Forall normal (source r) /\ is_file w (source r) (text r) /\ (forall more, source r <> rs ++ more) /\
  normal (category r) /\ normal (entry_name r) /\ is_dir w (rs ++ [category r]) /\ ~ is_dir w (rs ++ [category r; entry_name r]).
Definition for_entry (c n : str) (r : Request) : Prop := category r = c /\ entry_name r = n.
(** The last request for the entry c/n has the content d. *)
Definition last_request (reqs : list Request) (c n d : str) : Prop :=
  exists before r after, reqs = before ++ r :: after /\ for_entry c n r /\ text r = d /\ Forall (fun r' => ~ for_entry c n r') after.
(** The store after the requests: inserted entries have the content given last, the others are as they were. *)
Definition updated (es : list (str * Node)) (reqs : list Request) (es' : list (str * Node)) : Prop :=
  forall c n d, holds es' c n d <-> last_request reqs c n d \/ (Forall (fun r => ~ for_entry c n r) reqs /\ holds es c n d).
