(** * Why a glob pattern is refused, and with which words (C84): the shortest account of every pattern the parser does not accept. *)
From Coq Require Import String ZArith Arith List Bool.
From Verif Require Import Utf8 GoStr GlobLex GlobSpec GlobGramSpec.
Import ListNotations.

(** The texts. *)
Definition t_rune : str := lit "could not read rune".
Definition t_end : str := lit "unexpected end of input".
Definition t_close : str := lit "expected close range character".
Definition t_range : str := lit "could not parse range".
Definition t_order (hi lo : Z) : str := lit "hi character '" ++ encode hi ++ lit "' should be greater than lo '" ++ encode lo ++ lit "'".

(** Bytes that do not begin with a rune that can be read: invalid UTF-8, or the replacement character itself. *)
Definition unreadable (t : str) : Prop := t <> [] /\ fst (decode t) = RuneError.
(** Nothing more can be read. *)
Definition gone (t : str) : Prop := t = [] \/ unreadable t.
(** The same, perhaps after a lone backslash. *)
Definition broken (t : str) : Prop := gone t \/ exists u, t = cEscape :: u /\ gone u.
(** What follows the bracket (and the exclamation mark) of a class that is refused, and the text of the error. *)
Inductive bad_class : str -> str -> Prop :=
  | bc_text cs x t : writes_text [cRangeClose] cs x -> broken t -> ~ second_hyphen (x ++ t) -> bad_class (x ++ t) t_end
  | bc_hi lo t : writable lo -> gone t -> bad_class (encode lo ++ [cBetween] ++ t) t_end
  | bc_end lo hi t : writable lo -> writable hi -> gone t -> bad_class (encode lo ++ [cBetween] ++ encode hi ++ t) t_end
  | bc_close lo hi c t : writable lo -> writable hi -> writable c -> c <> cRangeClose -> bad_class (encode lo ++ [cBetween] ++ encode hi ++ encode c ++ t) t_close
  | bc_order lo hi t : writable lo -> writable hi -> (hi < lo)%Z -> bad_class (encode lo ++ [cBetween] ++ encode hi ++ [cRangeClose] ++ t) (t_order hi lo)
  | bc_empty t : ~ unreadable t -> HasPrefix t [cBetween] = false -> bad_class ([cRangeClose] ++ t) t_range
  | bc_rune t : unreadable t -> bad_class ([cRangeClose] ++ t) t_rune.
(** A refused pattern: terms that are fine, then bytes that are not characters, or a bad class. *)
Definition refused (p m : str) : Prop :=
  exists ns s, open_terms false ns s /\
    ((m = t_rune /\ exists t, unreadable t /\ (p = s ++ t \/ p = s ++ [cEscape] ++ t))
     \/ exists not v, p = s ++ [cRangeOpen] ++ mark not ++ v /\ (not = false -> HasPrefix v [cRangeNot] = false) /\ bad_class v m).
