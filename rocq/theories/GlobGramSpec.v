(** * The patterns the glob parser accepts, as a grammar (C44): the documented one (GlobSpec.v), with classes as they really are,
      alternatives left open at the end, and a backslash last. *)
From Coq Require Import ZArith Arith List Bool.
From Verif Require Import Utf8 GoStr GlobLex GlobSpec.
Import ListNotations.

(** The second character of s is a hyphen. *)
Definition second_hyphen (s : str) : Prop := exists c t, writable c /\ s = encode c ++ [cBetween] ++ t.
(** Between the brackets of a class: a range of any two characters in order, or any text in which ] is quoted, unless its second character is a
    hyphen; the first exclamation mark negates. *)
Inductive class_of (not : bool) : Node -> str -> Prop :=
  | co_range lo hi : writable lo -> writable hi -> (lo <= hi)%Z -> (not = false -> lo <> cRangeNot) ->
      class_of not (NRange not lo hi) (encode lo ++ [cBetween] ++ encode hi)
  | co_list cs s : cs <> [] -> writes_text [cRangeClose] cs s -> (not = false -> HasPrefix s [cRangeNot] = false) -> ~ second_hyphen s ->
      class_of not (NList not (utf8 cs)) s.
(** A term; the flag says whether it is inside alternatives. *)
Inductive term_of : bool -> Node -> str -> Prop :=
  | to_text a cs s : cs <> [] -> writes_text (special_in a) cs s -> term_of a (NText (utf8 cs)) s
  | to_any a : term_of a NAny [cAny]
  | to_super a : term_of a NSuper [cAny; cAny]
  | to_single a : term_of a NSingle [cSingle]
  | to_class a not n s : class_of not n s -> term_of a n ([cRangeOpen] ++ mark not ++ s ++ [cRangeClose])
  | to_anyof a ns s : alts_of ns s -> term_of a (NAnyOf ns) ([cTermsOpen] ++ s ++ [cTermsClose])
with terms_of : bool -> list Node -> str -> Prop :=
  | ts_nil a : terms_of a [] []
  | ts_cons a n ns s t : term_of a n s -> apart n ns -> terms_of a ns t -> terms_of a (n :: ns) (s ++ t)
with alts_of : list Node -> str -> Prop :=
  | al_one ns s : terms_of true ns s -> alts_of [NPattern ns] s
  | al_cons ns rest s t : terms_of true ns s -> alts_of rest t -> alts_of (NPattern ns :: rest) (s ++ [cComma] ++ t).
(** Terms up to the end of the pattern: alternatives may be left open. *)
Inductive open_terms : bool -> list Node -> str -> Prop :=
  | ot_done a ns s : terms_of a ns s -> open_terms a ns s
  | ot_open a ns alts s t : terms_of a ns s -> open_alts alts t -> open_terms a (ns ++ [NAnyOf alts]) (s ++ [cTermsOpen] ++ t)
with open_alts : list Node -> str -> Prop :=
  | oa_last ns s : open_terms true ns s -> open_alts [NPattern ns] s
  | oa_cons ns rest s t : terms_of true ns s -> open_alts rest t -> open_alts (NPattern ns :: rest) (s ++ [cComma] ++ t).
(** The accepted patterns with their trees. *)
Definition reads_pattern (t : Node) (p : str) : Prop :=
  exists ns s, t = NPattern ns /\ open_terms false ns s /\ (p = s \/ p = s ++ [cEscape]).
