(** * Model of glob/syntax (lexer and parser) and glob.QuoteMeta.

    The lexer's position is the rest of the input.  [unread] always follows one [read] and goes back to the position before it; the
    cached rune it then returns is the one at that position, so an unread is modelled by keeping the old rest (the "could not unread"
    error needs two unreads in a row, which the code never does).  Once an error is recorded every later Next returns it, and the
    tokens queued in the same item are dropped, so an item that meets an error is modelled as an error. *)
From Coq Require Import String.
From Coq Require Import ZArith Arith List Bool.
From Verif Require Import Utf8 GoStr.
Import ListNotations.
Open Scope nat_scope.

Definition cAny : Z := 42.          (* '*' *)
Definition cComma : Z := 44.        (* ',' *)
Definition cSingle : Z := 63.       (* '?' *)
Definition cEscape : Z := 92.       (* '\' *)
Definition cRangeOpen : Z := 91.    (* '[' *)
Definition cRangeClose : Z := 93.   (* ']' *)
Definition cTermsOpen : Z := 123.   (* '{' *)
Definition cTermsClose : Z := 125.  (* '}' *)
Definition cRangeNot : Z := 33.     (* '!' *)
Definition cBetween : Z := 45.      (* '-' *)
(** lexer.Special (lexer.go:24-36). *)
Definition Special (c : Z) : bool := existsb (Z.eqb c) [cAny; cSingle; cEscape; cRangeOpen; cRangeClose; cTermsOpen; cTermsClose].
(** glob.QuoteMeta (glob.go:65-80). *)
Fixpoint QuoteMeta (s : str) : str :=
  match s with [] => [] | c :: t => if Special c then cEscape :: c :: QuoteMeta t else c :: QuoteMeta t end.

(** Tokens (token.go:5-24, 81-84; the queue of lexer.go:38-53 is a list); the raw text is kept where the parser looks at it. *)
Inductive Tok := TEOF | TError | TText (raw : str) | TAny | TSuper | TSingle | TNot | TSep | TRangeOpen | TRangeClose
  | TLo (raw : str) | THi (raw : str) | TBetween | TOpen | TClose.

(** peek and read (lexer.go:90-132): the rune (0 = eof at the end), and the rest; None = error recorded. *)
Definition read (s : str) : option (Z * str) :=
  match s with
  | [] => Some (0%Z, [])
  | _ => let '(r, w) := decode s in if (r =? RuneError)%Z then None else Some (r, skipn w s)
  end.
(** fetchText (lexer.go:244-274): the runes up to a breaker (not consumed) or eof (a NUL is consumed). *)
Fixpoint fetchText (fuel : nat) (breakers : list Z) (escaped : bool) (s : str) (data : list Z) : option (list Z * str) :=
  match fuel with
  | O => Some (rev data, s)
  | S f =>
      match read s with
      | None => None
      | Some (r, s') =>
          if (r =? 0)%Z then Some (rev data, s')
          else if negb escaped && (r =? cEscape)%Z then fetchText f breakers true s' data
          else if negb escaped && existsb (Z.eqb r) breakers then Some (rev data, s)
          else fetchText f breakers false s' (r :: data)
      end
  end.
(** fetchText with enough fuel: every step but the last consumes a byte. *)
Definition text (breakers : list Z) (s : str) : option (list Z * str) := fetchText (S (length s)) breakers false s [].
Definition text_tok (data : list Z) : list Tok := match data with [] => [] | _ => [TText (utf8 data)] end.
(** fetchRange once Not has been handled (lexer.go:198-242): the tokens up to the closing bracket. *)
Definition range_rest (s : str) : option (list Tok * str) :=
  match read s with
  | None => None
  | Some (r, s1) =>
      if (r =? 0)%Z then None
      else
        match read s1 with
        | None => None
        | Some (n, s2) =>
            if (n =? cBetween)%Z then
              match read s2 with                     (* wantHi *)
              | None => None
              | Some (hi, s3) =>
                  if (hi =? 0)%Z then None
                  else match read s3 with            (* wantClose *)
                       | None => None
                       | Some (c, s4) => if (c =? cRangeClose)%Z then Some ([TLo (encode r); TBetween; THi (encode hi); TRangeClose], s4) else None
                       end
              end
            else
              match text [cRangeClose] s with
              | None => None
              | Some (data, s3) =>
                  match read s3 with                 (* wantClose *)
                  | None => None
                  | Some (c, s4) => if (c =? cRangeClose)%Z then Some (text_tok data ++ [TRangeClose], s4) else None
                  end
              end
        end
  end.
Definition fetchRange (s : str) : option (list Tok * str) :=
  match read s with
  | None => None
  | Some (r, s1) =>
      if (r =? cRangeNot)%Z then match range_rest s1 with Some (ts, s') => Some (TNot :: ts, s') | None => None end
      else range_rest s
  end.
(** fetchItem (lexer.go:150-196): tokens, termsLevel and rest; None = error. *)
Definition inTextBreakers : list Z := [cSingle; cAny; cRangeOpen; cTermsOpen].
Definition inTermsBreakers : list Z := inTextBreakers ++ [cTermsClose; cComma].
Definition fetchItem (level : nat) (s : str) : option (list Tok * nat * str) :=
  match read s with
  | None => None
  | Some (r, s1) =>
      if (r =? 0)%Z then Some ([TEOF], level, s1)
      else if (r =? cTermsOpen)%Z then Some ([TOpen], S level, s1)
      else if (r =? cComma)%Z && (0 <? level) then Some ([TSep], level, s1)
      else if (r =? cTermsClose)%Z && (0 <? level) then Some ([TClose], level - 1, s1)
      else if (r =? cRangeOpen)%Z then match fetchRange s1 with Some (ts, s2) => Some (TRangeOpen :: ts, level, s2) | None => None end
      else if (r =? cSingle)%Z then Some ([TSingle], level, s1)
      else if (r =? cAny)%Z then
        match read s1 with
        | None => None
        | Some (r2, s2) => if (r2 =? cAny)%Z then Some ([TSuper], level, s2) else Some ([TAny], level, s1)
        end
      else match text (if 0 <? level then inTermsBreakers else inTextBreakers) s with
           | Some (data, s2) => Some (text_tok data, level, s2)
           | None => None
           end
  end.
(** All the tokens Next returns (lexer.go:78-88), up to the first EOF or Error; an item without tokens makes Next fetch again. *)
Fixpoint lex (fuel : nat) (level : nat) (s : str) : list Tok :=
  match fuel with
  | O => []
  | S f =>
      match fetchItem level s with
      | None => [TError]
      | Some ([TEOF], _, _) => [TEOF]
      | Some (ts, level', s') => ts ++ lex f level' s'
      end
  end.
Definition Lex (s : str) : list Tok := lex (S (length s)) 0 s.

(** ** Syntax trees (ast.go).  Parent pointers are the parser's stack. *)
Inductive Node := NNothing | NPattern (ch : list Node) | NList (not : bool) (chars : str) | NRange (not : bool) (lo hi : Z)
  | NText (t : str) | NAny | NSuper | NSingle | NAnyOf (ch : list Node).
Inductive PRes := POk (n : Node) | PErr | PCrash.
(** The parser's position: the children so far (latest first) of the current pattern, and for each enclosing AnyOf its finished
    patterns and the children of the pattern it is in. *)
Definition Stack := list (list Node * list Node).
(** The tree when the input ends here: unclosed alternatives stay as they are. *)
Fixpoint unwind (cur : list Node) (stk : Stack) : Node :=
  match stk with
  | [] => NPattern (rev cur)
  | (alts, up) :: stk' => unwind (NAnyOf (rev (NPattern (rev cur) :: alts)) :: up) stk'
  end.
(** What parserRange has seen. *)
Record RState := { rnot : bool; rlo : Z; rhi : Z; rchars : str }.
Definition rstart : RState := {| rnot := false; rlo := 0; rhi := 0; rchars := [] |}.
(** parserMain (parser.go:36-88) and parserRange (parser.go:90-158), with the loop of Parse (parser.go:17-34).
    A nil Parent is dereferenced = PCrash; the list of tokens ends with EOF or Error, so its end is never met (PCrash to be safe). *)
Fixpoint parse (ts : list Tok) (mode : option RState) (cur : list Node) (stk : Stack) : PRes :=
  match ts with
  | [] => PCrash
  | t :: ts' =>
      match mode with
      | None =>
          match t with
          | TEOF => POk (unwind cur stk)
          | TError => PErr
          | TText raw => parse ts' None (NText raw :: cur) stk
          | TAny => parse ts' None (NAny :: cur) stk
          | TSuper => parse ts' None (NSuper :: cur) stk
          | TSingle => parse ts' None (NSingle :: cur) stk
          | TRangeOpen => parse ts' (Some rstart) cur stk
          | TOpen => parse ts' None [] (([], cur) :: stk)
          | TSep => match stk with [] => PCrash | (alts, up) :: stk' => parse ts' None [] ((NPattern (rev cur) :: alts, up) :: stk') end
          | TClose => match stk with [] => PCrash | (alts, up) :: stk' => parse ts' None (NAnyOf (rev (NPattern (rev cur) :: alts)) :: up) stk' end
          | TNot | TRangeClose | TLo _ | THi _ | TBetween => PErr
          end
      | Some st =>
          match t with
          | TEOF => PErr
          | TError => PErr
          | TNot => parse ts' (Some {| rnot := true; rlo := rlo st; rhi := rhi st; rchars := rchars st |}) cur stk
          | TLo raw => let '(r, w) := decode raw in if w <? length raw then PErr
                       else parse ts' (Some {| rnot := rnot st; rlo := r; rhi := rhi st; rchars := rchars st |}) cur stk
          | TBetween => parse ts' mode cur stk
          | THi raw => let '(r, w) := decode raw in if w <? length raw then PErr
                       else if (r <? rlo st)%Z then PErr
                       else parse ts' (Some {| rnot := rnot st; rlo := rlo st; rhi := r; rchars := rchars st |}) cur stk
          | TText raw => parse ts' (Some {| rnot := rnot st; rlo := rlo st; rhi := rhi st; rchars := raw |}) cur stk
          | TRangeClose =>
              let isRange := negb (rlo st =? 0)%Z && negb (rhi st =? 0)%Z in
              let isChars := negb (eqs (rchars st) []) in
              if Bool.eqb isChars isRange then PErr
              else parse ts' None ((if isRange then NRange (rnot st) (rlo st) (rhi st) else NList (rnot st) (rchars st)) :: cur) stk
          | _ => parse ts' mode cur stk
          end
      end
  end.
(** syntax.Parse (syntax.go:8-10). *)
Definition Parse (s : str) : PRes := parse (Lex s) None [] [].
