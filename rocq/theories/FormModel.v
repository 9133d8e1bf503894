(** * Model of cmds/generate.go: the generate command, with and without --form. *)
From Coq Require Import String ZArith List Bool.
From Verif Require Import Utf8 PasswordModel.
Import ListNotations.
Open Scope Z_scope.

(** Rune constants of the form language. *)
Definition ra := 97. Definition rx := 120. Definition rX := 88. Definition rn := 110. Definition rs := 115.
Definition rdash := 45. Definition runder := 95. Definition rslash := 47. Definition rback := 92. Definition rhash := 35.

(** The counting loop (generate.go:42-55). *)
Definition countr (r : Z) (form : list Z) : Z := Z.of_nat (length (filter (Z.eqb r) form)).
(** generate.go:57-60: the request derived from the form (Go's / truncates; the count is >= 0). *)
Definition form_numbers (form : list Z) : Z := countr rn form + countr ra form / 3.
Definition form_symbols (form : list Z) : Z := countr rs form.
Definition form_length (form : list Z) : Z :=
  (countr rx form + (countr ra form - countr ra form / 3)) + countr rX form + form_numbers form + form_symbols form.

(** isNumber, isSymbol (generate.go:72-75). *)
Definition isNumber (c : Z) : bool := (48 <=? c) && (c <=? 57).
Definition isLetter (c : Z) : bool := existsb (Z.eqb c) (LowerLetters ++ UpperLetters).
Definition isSymbol (c : Z) : bool := negb (isNumber c) && negb (isLetter c).

(** strings.ToLower / ToUpper of a one-rune string; here applied to ASCII letters only. *)
Definition to_lower (c : Z) : Z := if (65 <=? c) && (c <=? 90) then c + 32 else c.
Definition to_upper (c : Z) : Z := if (97 <=? c) && (c <=? 122) then c - 32 else c.

(** The construction loop (generate.go:93-116); None = index out of range (panic).  [res] is a string:
    res[0] is its first byte, string(res[0]) re-encodes it. *)
Fixpoint fill (form chars numbers symbols res : list Z) : option (list Z) :=
  match form with
  | [] => Some []
  | c :: form' =>
      if c =? rx then
        match chars with ch :: chars' => option_map (fun o => encode (to_lower ch) ++ o) (fill form' chars' numbers symbols res) | [] => None end
      else if c =? rX then
        match chars with ch :: chars' => option_map (fun o => encode (to_upper ch) ++ o) (fill form' chars' numbers symbols res) | [] => None end
      else if c =? rn then
        match numbers with ch :: numbers' => option_map (fun o => encode ch ++ o) (fill form' chars numbers' symbols res) | [] => None end
      else if c =? rs then
        match symbols with ch :: symbols' => option_map (fun o => encode ch ++ o) (fill form' chars numbers symbols' res) | [] => None end
      else if (c =? rdash) || (c =? runder) || (c =? rslash) || (c =? rback) || (c =? rhash) then
        option_map (fun o => encode c ++ o) (fill form' chars numbers symbols res)
      else if c =? ra then
        match res with ch :: res' => option_map (fun o => string_of_byte ch ++ o) (fill form' chars numbers symbols res') | [] => None end
      else fill form' chars numbers symbols res
  end.

(** func (a *GenerateCmd) Run (generate.go:23-126), the printed text as result (clipboard.Write's
    outcome is ignored by the code).  [form] = *a.Form, ranged over as runes; password.Generate
    (password/generate.go:222-229) uses a generator with the default sets. *)
Definition generate_run (fuel : nat) (rng : list Z) (len numbers symbols : Z) (mixed unique : bool) (form : option (list Z))
  : result (list Z) :=
  match form with
  | None => Generate fuel (NewGenerator None) rng len numbers symbols (negb mixed) (negb unique)
  | Some f =>
      let f := runes f in
      match Generate fuel (NewGenerator None) rng (form_length f) (form_numbers f) (form_symbols f) (negb mixed) (negb unique) with
      | Ok res rest =>
          let rr := runes res in
          match fill f (filter (fun c => negb (isNumber c) && negb (isSymbol c)) rr) (filter isNumber rr)
                     (filter (fun c => negb (isNumber c) && isSymbol c) rr) res with
          | Some out => Ok out rest
          | None => Panic
          end
      | Err e => Err e
      | Panic => Panic
      | OutOfFuel => OutOfFuel
      end
  end.
