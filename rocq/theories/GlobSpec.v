(** * What the glob package promises (glob.go:13-36), independently of how it is implemented.

    Only the syntax trees [Node] and the results of the model are used from the model. *)
From Coq Require Import String.
From Coq Require Import ZArith Arith List Bool.
From Verif Require Import Utf8 GoStr GlobLex GlobMatch GlobCompile.
Import ListNotations.
Open Scope nat_scope.

(** s is the single character c. *)
Definition is_char (s : str) (c : Z) : Prop := valid_rune c /\ s = encode c.
(** ** Meaning of a pattern
    The strings a term stands for, given the separators.  A pattern is the concatenation of its terms, an alternative the union. *)
Fixpoint den (seps : list Z) (n : Node) (s : str) {struct n} : Prop :=
  let fix cat (ns : list Node) (s : str) {struct ns} : Prop :=
    match ns with [] => s = [] | n :: t => exists u v, s = u ++ v /\ den seps n u /\ cat t v end in
  let fix alt (ns : list Node) (s : str) {struct ns} : Prop :=
    match ns with [] => False | n :: t => den seps n s \/ alt t s end in
  match n with
  | NNothing => s = []
  | NText t => s = t
  | NAny => Forall (fun c => ~ In c seps) (runes s)                                 (* any sequence of non-separators *)
  | NSuper => True                                                                  (* any sequence *)
  | NSingle => exists c, is_char s c /\ ~ In c seps                                (* one non-separator *)
  | NList false cs => exists c, is_char s c /\ In c (runes cs)                     (* one of the characters *)
  | NList true cs => exists c, is_char s c /\ ~ In c (runes cs)
  | NRange false lo hi => exists c, is_char s c /\ (lo <= c <= hi)%Z
  | NRange true lo hi => exists c, is_char s c /\ ~ (lo <= c <= hi)%Z
  | NPattern ns => cat ns s
  | NAnyOf ns => alt ns s
  end.
Fixpoint cat (seps : list Z) (ns : list Node) (s : str) : Prop :=
  match ns with [] => s = [] | n :: t => exists u v, s = u ++ v /\ den seps n u /\ cat seps t v end.
Fixpoint alt (seps : list Z) (ns : list Node) (s : str) : Prop :=
  match ns with [] => False | n :: t => den seps n s \/ alt seps t s end.

(** ** Writing a tree as a pattern
    A character that can be written: a valid code point other than NUL and the replacement character. *)
Definition writable (c : Z) : Prop := valid_rune c /\ c <> 0%Z /\ c <> RuneError.
(** A text, each character plain or after a backslash; [sp] are the characters that need one (besides the backslash). *)
Inductive writes_text (sp : list Z) : list Z -> str -> Prop :=
  | wt_nil : writes_text sp [] []
  | wt_plain c cs s : writable c -> ~ In c sp -> c <> cEscape -> writes_text sp cs s -> writes_text sp (c :: cs) (encode c ++ s)
  | wt_esc c cs s : writable c -> writes_text sp cs s -> writes_text sp (c :: cs) (cEscape :: encode c ++ s).
(** Characters with a meaning in text: * ? [ { and, inside alternatives, } and the comma. *)
Definition special_in (alternative : bool) : list Z := [cSingle; cAny; cRangeOpen; cTermsOpen] ++ (if alternative then [cTermsClose; cComma] else []).
(** The characters of a class: plain except \ - ] (glob.go:31-33), without ! an exclamation mark not first, and not beginning with \-. *)
Definition writes_class (not : bool) (cs : list Z) (s : str) : Prop :=
  cs <> [] /\ writes_text [cBetween; cRangeClose] cs s /\ (not = false -> HasPrefix s [cRangeNot] = false) /\ HasPrefix s [cEscape; cBetween] = false.
Definition mark (not : bool) : str := if not then [cRangeNot] else [].
(** Two terms that cannot be written side by side: two texts would be one, * and * would be **. *)
Definition apart (n : Node) (rest : list Node) : Prop :=
  match n, rest with
  | NText _, NText _ :: _ => False
  | NAny, NAny :: _ | NAny, NSuper :: _ => False
  | _, _ => True
  end.
Inductive writes : bool -> Node -> str -> Prop :=
  | w_text a cs s : cs <> [] -> writes_text (special_in a) cs s -> writes a (NText (utf8 cs)) s
  | w_any a : writes a NAny [cAny]
  | w_super a : writes a NSuper [cAny; cAny]
  | w_single a : writes a NSingle [cSingle]
  | w_list a not cs s : writes_class not cs s -> writes a (NList not (utf8 cs)) ([cRangeOpen] ++ mark not ++ s ++ [cRangeClose])
  | w_range a not lo hi : writable lo -> writable hi -> (lo <= hi)%Z -> (not = false -> lo <> cRangeNot) ->
      writes a (NRange not lo hi) ([cRangeOpen] ++ mark not ++ encode lo ++ [cBetween] ++ encode hi ++ [cRangeClose])
  | w_anyof a ns s : writes_alts ns s -> writes a (NAnyOf ns) ([cTermsOpen] ++ s ++ [cTermsClose])
with writes_seq : bool -> list Node -> str -> Prop :=
  | ws_nil a : writes_seq a [] []
  | ws_cons a n ns s t : writes a n s -> apart n ns -> writes_seq a ns t -> writes_seq a (n :: ns) (s ++ t)
with writes_alts : list Node -> str -> Prop :=
  | wa_one ns s : writes_seq true ns s -> writes_alts [NPattern ns] s
  | wa_cons ns rest s t : writes_seq true ns s -> writes_alts rest t -> writes_alts (NPattern ns :: rest) (s ++ [cComma] ++ t).
Definition writes_pattern (t : Node) (s : str) : Prop := exists ns, t = NPattern ns /\ writes_seq false ns s.

(** ** Compiling
    glob.Compile(pattern, seps...) returns the matcher m (compile is fuelled in the model: with enough fuel). *)
Definition Globs (pattern : str) (seps : list Z) (m : Matcher) : Prop :=
  exists t fuel, Parse pattern = POk t /\ compile_f fuel t seps = Some m.
(** The compiled glob accepts s. *)
Definition accepts (m : Matcher) (s : str) : Prop := Match m s = Some true.
Definition rejects (m : Matcher) (s : str) : Prop := Match m s = Some false.
Definition panics (m : Matcher) (s : str) : Prop := Match m s = None.
(** An ASCII string. *)
Definition ascii (s : str) : Prop := Forall (fun c => (0 <= c < 128)%Z) s.
