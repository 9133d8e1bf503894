(** * Model of the matchers' String methods (glob/match), of glob/match/debug/debug.go and of what globdraw prints. *)
From Coq Require Import String.
From Coq Require Import ZArith Arith List Bool DecimalString HexadecimalString HexadecimalN.
From Verif Require Import Utf8 GoStr GlobLex GlobMatch GlobCompile GlobSpec GlobTool.
Import ListNotations.
Open Scope nat_scope.

(** ** Formatting (package fmt) *)
(** %d of an int. *)
Definition itoa (z : Z) : str := (if (z <? 0)%Z then lit "-" else []) ++ lit (DecimalString.NilZero.string_of_uint (Nat.to_uint (Z.to_nat (Z.abs z)))).
(** %x of a number that is not negative. *)
Definition hex (n : N) : str := lit (HexadecimalString.NilZero.string_of_uint (N.to_hex_uint n)).
(** string(runes) and string(rune). *)
Definition text_of (rs : list Z) : str := utf8 rs.
(** strings.Join(s, ","). *)
Fixpoint join_commas (l : list str) : str := match l with [] => [] | [x] => x | x :: t => x ++ lit "," ++ join_commas t end.
(** The mark of a negated matcher. *)
Definition neg (not : bool) : str := if not then lit "!" else [].

(** ** String (the files of glob/match; Matchers.String is match.go:23-30) *)
Fixpoint String_ (m : Matcher) : str :=
  match m with
  | MText t => lit "<text:`" ++ t ++ lit "`>"                                                            (* text.go:43-45 *)
  | MAny seps => lit "<any:![" ++ text_of seps ++ lit "]>"                                               (* any.go:44-46 *)
  | MSuper => lit "<super>"                                                                              (* super.go:31-33 *)
  | MSingle seps => lit "<single:![" ++ text_of seps ++ lit "]>"                                         (* single.go:42-44 *)
  | MList l not => lit "<list:" ++ neg not ++ lit "[" ++ text_of l ++ lit "]>"                           (* list.go:43-50 *)
  | MRange lo hi not => lit "<range:" ++ neg not ++ lit "[" ++ text_of [lo] ++ lit "," ++ text_of [hi] ++ lit "]>"  (* range.go:42-48 *)
  | MNothing => lit "<nothing>"                                                                          (* nothing.go:25-27 *)
  | MMin n => lit "<min:" ++ itoa (Z.of_nat n) ++ lit ">"                                                (* min.go:55-57 *)
  | MMax n => lit "<max:" ++ itoa (Z.of_nat n) ++ lit ">"                                                (* max.go:47-49 *)
  | MContains needle not => lit "<contains:" ++ neg not ++ lit "[" ++ needle ++ lit "]>"                 (* contains.go:52-58 *)
  | MPrefix p => lit "<prefix:" ++ p ++ lit ">"                                                          (* prefix.go:48-50 *)
  | MSuffix s => lit "<suffix:" ++ s ++ lit ">"                                                          (* suffix.go:33-35 *)
  | MPrefixAny p seps => lit "<prefix_any:" ++ p ++ lit "![" ++ text_of seps ++ lit "]>"                 (* prefix_any.go:53-55 *)
  | MSuffixAny s seps => lit "<suffix_any:![" ++ text_of seps ++ lit "]" ++ s ++ lit ">"                 (* suffix_any.go:41-43 *)
  | MPrefixSuffix p s => lit "<prefix_suffix:[" ++ p ++ lit "," ++ s ++ lit "]>"                         (* prefix_suffix.go:60-62 *)
  | MAnyOf ms => lit "<any_of:[" ++ join_commas (map String_ ms) ++ lit "]>"                             (* any_of.go:80-82 *)
  | MEveryOf ms => lit "<every_of:[" ++ join_commas (map String_ ms) ++ lit "]>"                         (* every_of.go:97-99 *)
  | MBTree v l r _ _ _ =>                                                                                (* btree.go:170-185 *)
      lit "<btree:[" ++ match l with Some x => String_ x | None => lit "<nil>" end ++ lit "<-" ++ String_ v ++ lit "->"
        ++ match r with Some x => String_ x | None => lit "<nil>" end ++ lit "]>"
  | MRow ms len => lit "<row_" ++ itoa len ++ lit ":[" ++ join_commas (map String_ ms) ++ lit "]>"       (* row.go:75-77 *)
  end.

(** ** The drawing *)
Definition percent : Z := 37%Z.
(** Bytes after % that are no complete verb by themselves: flags, width, precision, argument index; and bytes of longer characters. *)
Definition continues_verb (c : Z) : bool := existsb (Z.eqb c) (lit "#0+- *.[123456789") || (c <? 0)%Z || (128 <=? c)%Z.
(** fmt.Fprintf(buf, s) with s as the format and no argument: what is written.  Verbs with flags, width, precision, argument index or a
    character of several bytes are not modelled: then anything may be written. *)
Inductive Fprintf0 : str -> str -> Prop :=
  | fp_end : Fprintf0 [] []
  | fp_char c s o : c <> percent -> Fprintf0 s o -> Fprintf0 (c :: s) (c :: o)
  | fp_percent s o : Fprintf0 s o -> Fprintf0 (percent :: percent :: s) (percent :: o)
  | fp_noverb : Fprintf0 [percent] (lit "%!(NOVERB)")
  | fp_missing c s o : c <> percent -> continues_verb c = false -> Fprintf0 s o -> Fprintf0 (percent :: c :: s) (lit "%!" ++ [c] ++ lit "(MISSING)" ++ o)
  | fp_other c s o : continues_verb c = true -> Fprintf0 (percent :: c :: s) o.
(** rand.Int63(): any number of 63 bits. *)
Definition int63 (n : N) : Prop := (n < 2 ^ 63)%N.
Definition dq : str := [34%Z].
(** The format "%s"[label="%s"]; and the format "%s"->"%s"; (debug.go:20, 25, 26, 30, 36, 40, 44, 48, 52). *)
Definition node_text (id label : str) : str := dq ++ id ++ dq ++ lit "[label=" ++ dq ++ label ++ dq ++ lit "];".
Definition edge_text (a b : str) : str := dq ++ a ++ dq ++ lit "->" ++ dq ++ b ++ dq ++ lit ";".
(** graphviz_internal (debug.go:15-56): the matcher, its id, and the text returned.  The texts of the parts are written with Fprintf as
    formats (debug.go:31, 39, 47). *)
Inductive graphviz : Matcher -> str -> str -> Prop :=
  | gz_btree v l r ll rl len id o1 o2 : side id l o1 -> side id r o2 -> graphviz (MBTree v l r ll rl len) id (node_text id (String_ v) ++ o1 ++ o2)
  | gz_anyof ms id o : parts id ms o -> graphviz (MAnyOf ms) id (node_text id (lit "AnyOf") ++ o)
  | gz_everyof ms id o : parts id ms o -> graphviz (MEveryOf ms) id (node_text id (lit "EveryOf") ++ o)
  | gz_other m id : match m with MBTree _ _ _ _ _ _ | MAnyOf _ | MEveryOf _ => False | _ => True end -> graphviz m id (node_text id (String_ m))
with side : str -> option Matcher -> str -> Prop :=
  | sd_nil id n : int63 n -> side id None (node_text (hex n) (lit "<nil>") ++ edge_text id (hex n))
  | sd_some id m n o o' : int63 n -> graphviz m (hex n) o -> Fprintf0 o o' -> side id (Some m) (edge_text id (hex n) ++ o')
with parts : str -> list Matcher -> str -> Prop :=
  | pt_none id : parts id [] []
  | pt_more id m ms n o o' os : int63 n -> graphviz m (hex n) o -> Fprintf0 o o' -> parts id ms os -> parts id (m :: ms) (o' ++ edge_text id (hex n) ++ os).
(** Graphviz (debug.go:11-13). *)
Inductive Graphviz (pattern : str) (m : Matcher) : str -> Prop :=
  | gv n o : int63 n -> graphviz m (hex n) o -> Graphviz pattern m (lit "digraph G {graph[label=" ++ dq ++ pattern ++ dq ++ lit "];" ++ o ++ lit "}").
(** What globdraw -p pattern -s sep writes on the standard output (globdraw/main.go:15-45), if it comes to drawing. *)
Definition globdraw_prints (pattern sep : str) (out : str) : Prop := exists m, globdraw pattern sep (inr m) /\ Graphviz pattern m out.
