(** * password.Generate with Go's int: 64 bits, two's complement, wrapping around. *)
From Coq Require Import ZArith List Bool.
From Verif Require Import PasswordModel.
Open Scope Z_scope.

(** The values of an int, and what an operation leaves of its exact result (the Go specification, "Integer overflow"). *)
Definition int (x : Z) : Prop := -2 ^ 63 <= x < 2 ^ 63.
Definition wrap (x : Z) : Z := (x + 2 ^ 63) mod 2 ^ 64 - 2 ^ 63.

(** func (g *Generator) Generate (generate.go:130-210), as PasswordModel.Generate, but for the two subtractions of line 136. *)
Definition GenerateInt (fuel : nat) (g : Generator) (rng : list Z) (length_ numDigits numSymbols : Z)
  (noUpper allowRepeat : bool) : result (list Z) :=
  let ls := letters g noUpper in
  let chars := wrap (wrap (length_ - numDigits) - numSymbols) in
  if chars <? 0 then Err ErrExceedsTotalLength
  else if negb allowRepeat && (chars >? Z.of_nat (length ls)) then Err ErrLettersExceedsAvailable
  else if negb allowRepeat && (numDigits >? Z.of_nat (length (digits g))) then Err ErrDigitsExceedsAvailable
  else if negb allowRepeat && (numSymbols >? Z.of_nat (length (symbols g))) then Err ErrSymbolsExceedsAvailable
  else
    match pick fuel (Z.to_nat chars) ls allowRepeat nil rng with
    | Ok r1 rng1 =>
        match pick fuel (Z.to_nat numDigits) (digits g) allowRepeat r1 rng1 with
        | Ok r2 rng2 => pick fuel (Z.to_nat numSymbols) (symbols g) allowRepeat r2 rng2
        | x => x
        end
    | x => x
    end.
