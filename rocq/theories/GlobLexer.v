(** * Model of the glob lexer as the program runs it: positions, the one rune of push-back, the queue of tokens and the recorded
    error (glob/syntax/lexer/lexer.go), and the parser that pulls tokens from it, with its error texts (glob/syntax/ast/parser.go).
    GlobLex.v has the same lexer as a function from the rest of the pattern; GlobLexerProofs.v shows that the two agree. *)
From Coq Require Import String Ascii ZArith Arith List Bool Lia.
From Verif Require Import Utf8 GoStr GlobLex.
Import ListNotations.
Local Open Scope Z_scope.

Definition msg (s : string) : str := map (fun a => Z.of_nat (nat_of_ascii a)) (list_ascii_of_string s).
(** The error texts (lexer.go:98, 126, 205, 211; parser.go:84, 87, 101, 112, 122, 128, 139). *)
Definition m_rune := msg "could not read rune".
Definition m_unread := msg "could not unread rune".
Definition m_end := msg "unexpected end of input".
Definition m_close := msg "expected close range character".
Definition m_token := msg "unexpected token: ".          (* %s of the token is left out: never produced (C84_messages) *)
Definition m_unexpected_end := msg "unexpected end".
Definition m_length := msg "unexpected length of lo character".
Definition m_order (hi lo : Z) := msg "hi character '" ++ encode hi ++ msg "' should be greater than lo '" ++ encode lo ++ msg "'".
Definition m_range := msg "could not parse range".

(** TokenType and Token (token.go:5-24, 81-84). *)
Inductive TokenType := KEOF | KError | KText | KAny | KSuper | KSingle | KNot | KSeparator | KRangeOpen | KRangeClose | KRangeLo | KRangeHi | KRangeBetween
  | KTermsOpen | KTermsClose.
Record Token := { Type_ : TokenType; Raw : str }.
Definition T (k : TokenType) (r : str) : Token := {| Type_ := k; Raw := r |}.

(** type lexer (lexer.go:57-68); [data] is the whole pattern. *)
Record lexer := { data : str; pos : Z; err : option str; tokens : list Token; termsLevel : Z; lastRune : Z; lastRuneSize : Z; hasRune : bool }.
(** A call that returns, an index out of range, or a loop that has not ended. *)
Inductive res (A : Type) := Done (a : A) (l : lexer) | Panic | Hang.
Arguments Done {A}. Arguments Panic {A}. Arguments Hang {A}.
Definition bind {A B} (r : res A) (k : A -> lexer -> res B) : res B := match r with Done a l => k a l | Panic => Panic | Hang => Hang end.

(** NewLexer (lexer.go:70-76). *)
Definition NewLexer (source : str) : lexer :=
  {| data := source; pos := 0; err := None; tokens := []; termsLevel := 0; lastRune := 0; lastRuneSize := 0; hasRune := false |}.
(** errorf (lexer.go:134-136): the last error wins. *)
Definition errorf (l : lexer) (m : str) : lexer :=
  {| data := data l; pos := pos l; err := Some m; tokens := tokens l; termsLevel := termsLevel l; lastRune := lastRune l; lastRuneSize := lastRuneSize l; hasRune := hasRune l |}.
(** l.tokens.push (lexer.go:47-49). *)
Definition push (l : lexer) (t : Token) : lexer :=
  {| data := data l; pos := pos l; err := err l; tokens := tokens l ++ [t]; termsLevel := termsLevel l; lastRune := lastRune l; lastRuneSize := lastRuneSize l; hasRune := hasRune l |}.
(** termsEnter, termsLeave (lexer.go:142-148). *)
Definition terms (l : lexer) (d : Z) : lexer :=
  {| data := data l; pos := pos l; err := err l; tokens := tokens l; termsLevel := termsLevel l + d; lastRune := lastRune l; lastRuneSize := lastRuneSize l; hasRune := hasRune l |}.
(** inTerms (lexer.go:138-140). *)
Definition inTerms (l : lexer) : bool := termsLevel l >? 0.
(** seek (lexer.go:120-122), with the flag hasRune set as given. *)
Definition seek (l : lexer) (w : Z) (has : bool) : lexer :=
  {| data := data l; pos := pos l + w; err := err l; tokens := tokens l; termsLevel := termsLevel l; lastRune := lastRune l; lastRuneSize := lastRuneSize l; hasRune := has |}.
(** peek (lexer.go:90-103): rune and size, (0, 0) at the end or for a rune that cannot be read. *)
Definition peek (l : lexer) : res (Z * Z) :=
  if pos l =? Z.of_nat (length (data l)) then Done (0, 0) l
  else if (pos l <? 0) || (pos l >? Z.of_nat (length (data l))) then Panic
  else let '(r, w) := decode (skipn (Z.to_nat (pos l)) (data l)) in
       if r =? RuneError then Done (0, 0) (errorf l m_rune) else Done (r, Z.of_nat w) l.
(** read (lexer.go:105-118). *)
Definition read_ (l : lexer) : res Z :=
  if hasRune l then Done (lastRune l) (seek l (lastRuneSize l) false)
  else bind (peek l) (fun rs l1 =>
    Done (fst rs) {| data := data l1; pos := pos l1 + snd rs; err := err l1; tokens := tokens l1; termsLevel := termsLevel l1;
                     lastRune := fst rs; lastRuneSize := snd rs; hasRune := hasRune l1 |}).
(** unread (lexer.go:124-131). *)
Definition unread (l : lexer) : lexer := if hasRune l then errorf l m_unread else seek l (- lastRuneSize l) true.
(** fetchText (lexer.go:244-274); [acc] is data, latest rune first. *)
Fixpoint fetchText_ (fuel : nat) (breakers : list Z) (escaped : bool) (acc : list Z) (l : lexer) : res unit :=
  let finish l := Done tt (match acc with [] => l | _ => push l (T KText (utf8 (rev acc))) end) in
  match fuel with
  | O => Hang
  | S f =>
      bind (read_ l) (fun r l1 =>
        if r =? 0 then finish l1
        else if negb escaped && (r =? cEscape) then fetchText_ f breakers true acc l1
        else if negb escaped && existsb (Z.eqb r) breakers then finish (unread l1)
        else fetchText_ f breakers false (r :: acc) l1)
  end.
(** fetchRange (lexer.go:198-242), its loop; [big] is the fuel for fetchText. *)
Fixpoint fetchRange_ (fuel big : nat) (wantHi wantClose seenNot : bool) (l : lexer) : res unit :=
  match fuel with
  | O => Hang
  | S f =>
      bind (read_ l) (fun r l1 =>
        if r =? 0 then Done tt (errorf l1 m_end)
        else if wantClose then
          (if negb (r =? cRangeClose) then Done tt (errorf l1 m_close) else Done tt (push l1 (T KRangeClose (encode r))))
        else if wantHi then fetchRange_ f big wantHi true seenNot (push l1 (T KRangeHi (encode r)))
        else if negb seenNot && (r =? cRangeNot) then fetchRange_ f big wantHi wantClose true (push l1 (T KNot (encode r)))
        else bind (peek l1) (fun nw l2 =>
          if fst nw =? cBetween then
            fetchRange_ f big true wantClose seenNot
              (push (push (seek l2 (snd nw) (hasRune l2)) (T KRangeLo (encode r))) (T KRangeBetween (encode (fst nw))))
          else bind (fetchText_ big [cRangeClose] false [] (unread l2)) (fun _ l3 => fetchRange_ f big wantHi true seenNot l3)))
  end.
(** fetchItem (lexer.go:153-196). *)
Definition fetchItem_ (big : nat) (l : lexer) : res unit :=
  bind (read_ l) (fun r l1 =>
    if r =? 0 then Done tt (push l1 (T KEOF []))
    else if r =? cTermsOpen then Done tt (push (terms l1 1) (T KTermsOpen (encode r)))
    else if (r =? cComma) && inTerms l1 then Done tt (push l1 (T KSeparator (encode r)))
    else if (r =? cTermsClose) && inTerms l1 then Done tt (terms (push l1 (T KTermsClose (encode r))) (-1))
    else if r =? cRangeOpen then fetchRange_ big big false false false (push l1 (T KRangeOpen (encode r)))
    else if r =? cSingle then Done tt (push l1 (T KSingle (encode r)))
    else if r =? cAny then
      bind (read_ l1) (fun r2 l2 =>
        if r2 =? cAny then Done tt (push l2 (T KSuper (encode r ++ encode r)))
        else Done tt (push (unread l2) (T KAny (encode r))))
    else let l2 := unread l1 in fetchText_ big (if inTerms l2 then inTermsBreakers else inTextBreakers) false [] l2).
(** Next (lexer.go:78-88): the error comes before the queued tokens. *)
Fixpoint Next (fuel big : nat) (l : lexer) : res Token :=
  match err l with
  | Some m => Done (T KError m) l
  | None =>
      match tokens l with
      | t :: ts => Done t {| data := data l; pos := pos l; err := err l; tokens := ts; termsLevel := termsLevel l;
                             lastRune := lastRune l; lastRuneSize := lastRuneSize l; hasRune := hasRune l |}
      | [] => match fuel with O => Hang | S f => bind (fetchItem_ big l) (fun _ l1 => Next f big l1) end
      end
  end.

(** What Parse returns. *)
Inductive outcome := OTree (n : Node) | OError (m : str) | OPanic | OHang.
(** Parse (parser.go:17-34) with parserMain (parser.go:36-88, mode None) and parserRange (parser.go:90-158); the tree is kept as in
    GlobLex: [cur] the children of the current pattern, [stk] the enclosing alternatives. *)
Fixpoint parse_ (fuel big : nat) (mode : option RState) (cur : list Node) (stk : Stack) (l : lexer) : outcome :=
  match fuel with
  | O => OHang
  | S f =>
      match Next big big l with
      | Panic => OPanic
      | Hang => OHang
      | Done t l1 =>
          match mode with
          | None =>
              match Type_ t with
              | KEOF => OTree (unwind cur stk)
              | KError => OError (Raw t)
              | KText => parse_ f big None (NText (Raw t) :: cur) stk l1
              | KAny => parse_ f big None (NAny :: cur) stk l1
              | KSuper => parse_ f big None (NSuper :: cur) stk l1
              | KSingle => parse_ f big None (NSingle :: cur) stk l1
              | KRangeOpen => parse_ f big (Some rstart) cur stk l1
              | KTermsOpen => parse_ f big None [] (([], cur) :: stk) l1
              | KSeparator => match stk with [] => OPanic | (alts, up) :: stk' => parse_ f big None [] ((NPattern (rev cur) :: alts, up) :: stk') l1 end
              | KTermsClose => match stk with [] => OPanic | (alts, up) :: stk' => parse_ f big None (NAnyOf (rev (NPattern (rev cur) :: alts)) :: up) stk' l1 end
              | KNot | KRangeClose | KRangeLo | KRangeHi | KRangeBetween => OError m_token
              end
          | Some st =>
              match Type_ t with
              | KEOF => OError m_unexpected_end
              | KError => OError (Raw t)
              | KNot => parse_ f big (Some {| rnot := true; rlo := rlo st; rhi := rhi st; rchars := rchars st |}) cur stk l1
              | KRangeLo => let '(r, w) := decode (Raw t) in if (w <? length (Raw t))%nat then OError m_length
                            else parse_ f big (Some {| rnot := rnot st; rlo := r; rhi := rhi st; rchars := rchars st |}) cur stk l1
              | KRangeBetween => parse_ f big mode cur stk l1
              | KRangeHi => let '(r, w) := decode (Raw t) in if (w <? length (Raw t))%nat then OError m_length
                            else if r <? rlo st then OError (m_order r (rlo st))
                            else parse_ f big (Some {| rnot := rnot st; rlo := rlo st; rhi := r; rchars := rchars st |}) cur stk l1
              | KText => parse_ f big (Some {| rnot := rnot st; rlo := rlo st; rhi := rhi st; rchars := Raw t |}) cur stk l1
              | KRangeClose =>
                  let isRange := negb (rlo st =? 0) && negb (rhi st =? 0) in
                  let isChars := negb (eqs (rchars st) []) in
                  if Bool.eqb isChars isRange then OError m_range
                  else parse_ f big None ((if isRange then NRange (rnot st) (rlo st) (rhi st) else NList (rnot st) (rchars st)) :: cur) stk l1
              | _ => parse_ f big mode cur stk l1
              end
          end
      end
  end.
(** syntax.Parse (syntax.go:8-10): Parse(NewLexer(s)). *)
Definition Parse_ (fuel : nat) (s : str) : outcome := parse_ fuel fuel None [] [] (NewLexer s).
