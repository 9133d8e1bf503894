(** * Specification vocabulary for the commands (C35, C36, C38-C40, C52, C53), independent of the model of the commands. *)
From Coq Require Import String DecimalString.
From Coq Require Import ZArith NArith Arith List Bool.
From Verif Require Import GoStr FsModel RepoSpec CmSpec.
Import ListNotations.
Open Scope nat_scope.

(** ** Text *)
Definition eol : str := [10%Z].
(** A number in decimal. *)
Definition decimal (n : nat) : str := lit (NilZero.string_of_uint (Nat.to_uint n)).
Definition line_of (t : str) : str := t ++ eol.
Definition numbered_line (e : nat * str) : str := decimal (fst e) ++ lit ": " ++ snd e ++ eol.
Definition lines_of (ts : list str) : str := concat (map line_of ts).
Definition numbered_lines (es : list (nat * str)) : str := concat (map numbered_line es).

(** ** The store *)
(** The directory [es] at the clean path [root] is a store. *)
Definition store_at (w : World) (root : str) (es : list (str * Node)) : Prop :=
  Clean root = root /\ root <> lit "." /\ root <> lit "/" /\ Base root <> lit ".git" /\ lookup w root = Found (Dir es) /\ wfs es.
(** The entry cat/name has this content. *)
Definition holds (es : list (str * Node)) (cat name content : str) : Prop :=
  exists sub, In (cat, Dir sub) es /\ In (name, File content) sub.
(** f is the relative path of an entry with this content. *)
Definition entry_content (es : list (str * Node)) (f content : str) : Prop :=
  exists cat name, entry es cat name /\ holds es cat name content /\ f = rel cat name.
(** [ws] lists the entries' relative paths, each once. *)
Definition all_entries (es : list (str * Node)) (ws : list str) : Prop :=
  NoDup ws /\ forall f, In f ws <-> exists cat name, entry es cat name /\ f = rel cat name.
(** [cats] lists the categories that have an entry, each once. *)
Definition all_categories (es : list (str * Node)) (cats : list str) : Prop :=
  NoDup cats /\ forall c, In c cats <-> exists name, entry es c name.
(** f is a best match for the query among ws: bag of the two-byte substrings. *)
Definition best_match (lower : str -> str) (ws : list str) (q f : str) : Prop :=
  In f ws /\ shares lower [2] q f /\ forall k v v', In k ws -> is_score lower [2] ws q k v -> is_score lower [2] ws q f v' -> v <= v'.
Definition no_match (lower : str -> str) (ws : list str) (q : str) : Prop := forall k, In k ws -> ~ shares lower [2] q k.

(** ** set-env *)
(** A key os.Setenv accepts. *)
Definition valid_key (k : str) : Prop := k <> [] /\ ~ In 61%Z k /\ ~ In 0%Z k.
(** The environment lines of an entry: pairs of key and value (the value is the first line). *)
Definition env_pairs (upper : str -> str) (texts : list str) : list (str * str) :=
  match texts with
  | [] => []
  | pw :: more => flat_map (fun t => if HasPrefix t (lit "env:") then [(upper (TrimSpace (skipn 4 t)), pw)] else []) more
  end.
(** The last value given to k by a list of assignments, ignoring those with invalid keys. *)
Definition last_value (pairs : list (str * str)) (k v : str) : Prop :=
  valid_key k /\ exists a b, pairs = a ++ (k, v) :: b /\ forall v', ~ In (k, v') b.
(** A selected entry. *)
Definition selected (name f : str) : Prop := f = name \/ name = [].
(** What set-env prints for assignments. *)
Definition printed (ps : list (str * str)) : str := concat (map (fun p => fst p ++ lit "=" ++ snd p ++ eol) ps).
(** All assignments of a list of entries whose contents are readable. *)
Inductive assignments (upper : str -> str) (es : list (str * Node)) (name : str) : list str -> list (str * str) -> Prop :=
  | as_nil : assignments upper es name [] []
  | as_skip f fs ps : ~ selected name f -> assignments upper es name fs ps -> assignments upper es name (f :: fs) ps
  | as_file f fs ps content texts : selected name f -> entry_content es f content -> shown content texts -> ~ binary texts ->
      assignments upper es name fs ps -> assignments upper es name (f :: fs) (env_pairs upper texts ++ ps).
Definition binary_entry (es : list (str * Node)) (f : str) : Prop := exists content texts, entry_content es f content /\ shown content texts /\ binary texts.
(** A selected, readable entry sets k to v. *)
Definition sets (upper : str -> str) (es : list (str * Node)) (name k v : str) : Prop :=
  valid_key k /\ exists f content texts, selected name f /\ entry_content es f content /\ shown content texts /\ ~ binary texts /\ In (k, v) (env_pairs upper texts).

(** ** Whole file systems *)
(** The node reached from "/" by names. *)
Definition node_at (w : World) (ns : list str) : Res := below (Dir (tree w)) ns.
Definition is_file (w : World) (ns : list str) (c : str) : Prop := node_at w ns = Found (File c).
Definition is_dir (w : World) (ns : list str) : Prop := exists es, node_at w ns = Found (Dir es).
(** w' is w with the file at ns having content c, everything else as before. *)
Definition only_change (w w' : World) (ns : list str) (c : str) : Prop :=
  cwd w' = cwd w /\ is_file w' ns c /\
  (forall ms c', ms <> ns -> (is_file w' ms c' <-> is_file w ms c')) /\
  (forall ms, ms <> ns -> (is_dir w' ms <-> is_dir w ms)).
(** The absolute path with these names. *)
Definition abs_path (ns : list str) : str := slash :: joins ns.

(** ** show *)
(** What show prints of an entry's lines. *)
Definition show_body (line_numbers : bool) (line : Z) (texts : list str) : str :=
  if line_numbers then numbered_lines (numbered 1 texts)
  else if (0 <? line)%Z then match nth_error texts (Z.to_nat line - 1) with Some t => line_of t | None => [] end
  else lines_of texts.
(** The line a QR code is asked for: the last one with the given number or beginning with the (not empty) field name; "" if none. *)
Definition qr_selected (line : Z) (field : str) (texts : list str) : str :=
  last (map snd (filter (fun e => (Z.of_nat (fst e) =? line)%Z || (negb (eqs field []) && HasPrefix (snd e) field)) (numbered 1 texts))) [].
(** The text a selected line is turned into: the field name's length cut off, trimmed, and without what precedes the first colon. *)
Definition qr_value (field l t : str) : Prop :=
  exists cut, length cut = length field /\ exists rest, l = cut ++ rest /\
    ((exists p, TrimSpace rest = p ++ 58%Z :: t /\ ~ In 58%Z p) \/ (~ In 58%Z (TrimSpace rest) /\ t = TrimSpace rest)).
Definition bytes (s : str) : Prop := Forall (fun b => 0 <= b < 256)%Z s.

(** ** list, search, grep *)
(** The best n matches, best first; an entry that matches is left out only if n others match at least as well. *)
Definition top_matches (lower : str -> str) (ws : list str) (q : str) (n : nat) (res : list str) : Prop :=
  NoDup res /\ length res <= n
  /\ (forall k, In k res -> In k ws /\ shares lower [2] q k)
  /\ (forall i j k k' v v', i < j -> nth_error res i = Some k -> nth_error res j = Some k' ->
        is_score lower [2] ws q k v -> is_score lower [2] ws q k' v' -> v' <= v)
  /\ (forall k v, In k ws -> shares lower [2] q k -> ~ In k res -> is_score lower [2] ws q k v ->
        length res = n /\ forall k' v', In k' res -> is_score lower [2] ws q k' v' -> v <= v').
(** What is printed for a file with these matching lines. *)
Definition matches_text (f : str) (ms : list (nat * str)) : str :=
  match ms with [] => [] | _ => lit "Matches found in '" ++ f ++ lit "'" ++ eol ++ numbered_lines ms end.
(** What is printed for an entry, given the line test. *)
Definition found_in (es : list (str * Node)) (p : str -> bool) (f out : str) : Prop :=
  exists content texts ms, entry_content es f content /\ shown content texts /\ matching p texts ms /\ out = matches_text f ms.
