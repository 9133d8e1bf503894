(** * Model of password/generate.go and password/mock.go.

    Go strings are lists of bytes (Z in 0..255).  The io.Reader is the finite list of bytes it will
    still deliver before failing; running out of bytes is the reader's error. *)
From Coq Require Import Ascii String ZArith List Bool.
Import ListNotations.
Open Scope Z_scope.

Definition bytes_of_string (s : string) : list Z :=
  map (fun c => Z.of_nat (nat_of_ascii c)) (list_ascii_of_string s).

(** Constants (generate.go:32-44). *)
Definition LowerLetters : list Z := bytes_of_string "abcdefghijklmnopqrstuvwxyz".
Definition UpperLetters : list Z := bytes_of_string "ABCDEFGHIJKLMNOPQRSTUVWXYZ".
Definition Digits : list Z := bytes_of_string "0123456789".
Definition Symbols : list Z := bytes_of_string "~!@#$%^&*()_+`-={}|[]\:""<>?,./".

(** The package's errors (generate.go:46-62) and the reader's error. *)
Inductive gerror :=
| ErrExceedsTotalLength | ErrLettersExceedsAvailable | ErrDigitsExceedsAvailable
| ErrSymbolsExceedsAvailable | ErrReader.

(** Outcomes: a value and the rest of the random stream, an error, a panic, or (loops only) more
    iterations than the fuel allowed. *)
Inductive result (A : Type) :=
| Ok (a : A) (rest : list Z) | Err (e : gerror) | Panic | OutOfFuel.
Arguments Ok {A} a rest.
Arguments Err {A} e.
Arguments Panic {A}.
Arguments OutOfFuel {A}.

(** crypto/rand.Int (Go standard library): panic for max <= 0; no bytes read for max = 1; otherwise
    read k big-endian bytes, mask the first to the bit length of max-1, retry while >= max.
    Each iteration consumes k >= 1 bytes, so the length of the stream is enough fuel. *)
Definition bit_len (n : Z) : Z := if n <=? 0 then 0 else Z.log2 n + 1.
Definition big_endian (bs : list Z) : Z := fold_left (fun a b => a * 256 + b) bs 0.
Definition mask_first (b : Z) (bs : list Z) : list Z :=
  match bs with [] => [] | x :: bs' => Z.land x (2 ^ b - 1) :: bs' end.
Fixpoint rand_loop (fuel k : nat) (b max : Z) (rng : list Z) : result Z :=
  match fuel with
  | O => Err ErrReader
  | S f =>
      if (length rng <? k)%nat then Err ErrReader
      else let n := big_endian (mask_first b (firstn k rng)) in
           if n <? max then Ok n (skipn k rng) else rand_loop f k b max (skipn k rng)
  end.
Definition rand_Int (rng : list Z) (max : Z) : result Z :=
  if max <=? 0 then Panic
  else
    let bl := bit_len (max - 1) in
    if bl =? 0 then Ok 0 rng
    else
      let k := Z.to_nat ((bl + 7) / 8) in
      let b := if bl mod 8 =? 0 then 8 else bl mod 8 in
      rand_loop (S (length rng)) k b max rng.

(** string(b) for a byte b: the UTF-8 encoding of the rune b (Go language specification). *)
Definition string_of_byte (b : Z) : list Z :=
  if b <? 128 then [b] else [192 + b / 64; 128 + b mod 64].

(** func randomElement (generate.go:255-261). *)
Definition randomElement (rng s : list Z) : result (list Z) :=
  match rand_Int rng (Z.of_nat (length s)) with
  | Ok n rest => Ok (string_of_byte (nth (Z.to_nat n) s 0)) rest
  | Err e => Err e
  | Panic => Panic
  | OutOfFuel => OutOfFuel
  end.

(** func randomInsert (generate.go:241-252). *)
Definition randomInsert (rng s val : list Z) : result (list Z) :=
  match s with
  | [] => Ok val rng
  | _ =>
      match rand_Int rng (Z.of_nat (length s) + 1) with
      | Ok n rest => Ok (firstn (Z.to_nat n) s ++ val ++ skipn (Z.to_nat n) s) rest
      | Err e => Err e
      | Panic => Panic
      | OutOfFuel => OutOfFuel
      end
  end.

(** strings.Contains. *)
Fixpoint has_prefix (s p : list Z) : bool :=
  match p, s with
  | [], _ => true
  | x :: p', y :: s' => (x =? y) && has_prefix s' p'
  | _, [] => false
  end.
Fixpoint contains (s sub : list Z) : bool :=
  has_prefix s sub || match s with [] => false | _ :: s' => contains s' sub end.

(** One of the three loops (generate.go:156-171, 174-189, 192-207): [todo] = iterations left.  The
    retry (i--; continue) repeats the iteration; only this can make the loop run for ever, so the
    loop has fuel and [OutOfFuel] stands for "still running". *)
Fixpoint pick (fuel todo : nat) (set : list Z) (allowRepeat : bool) (res rng : list Z)
  : result (list Z) :=
  match todo with
  | O => Ok res rng
  | S todo' =>
      match fuel with
      | O => OutOfFuel
      | S f =>
          match randomElement rng set with
          | Ok ch rest =>
              if negb allowRepeat && contains res ch then pick f todo set allowRepeat res rest
              else match randomInsert rest res ch with
                   | Ok res' rest' => pick f todo' set allowRepeat res' rest'
                   | Err e => Err e
                   | Panic => Panic
                   | OutOfFuel => OutOfFuel
                   end
          | Err e => Err e
          | Panic => Panic
          | OutOfFuel => OutOfFuel
          end
      end
  end.

(** type Generator (generate.go:66-72), the reader apart. *)
Record Generator := { lowerLetters : list Z; upperLetters : list Z; digits : list Z; symbols : list Z }.

(** func NewGenerator (generate.go:86-120): empty sets are replaced by the defaults; nil input is
    the all-empty input. *)
Definition or_default (s d : list Z) : list Z := match s with [] => d | _ => s end.
Definition NewGenerator (i : option Generator) : Generator :=
  let i := match i with Some g => g | None => {| lowerLetters := []; upperLetters := []; digits := []; symbols := [] |} end in
  {| lowerLetters := or_default (lowerLetters i) LowerLetters;
     upperLetters := or_default (upperLetters i) UpperLetters;
     digits := or_default (digits i) Digits;
     symbols := or_default (symbols i) Symbols |}.

(** func (g *Generator) Generate (generate.go:130-210).  Go's int is modelled by Z here;
    PasswordInt.v has the same function on ints that wrap around, and PasswordProps3.v says when the two agree. *)
Definition letters (g : Generator) (noUpper : bool) : list Z :=
  if noUpper then lowerLetters g else lowerLetters g ++ upperLetters g.
Definition Generate (fuel : nat) (g : Generator) (rng : list Z) (length_ numDigits numSymbols : Z)
  (noUpper allowRepeat : bool) : result (list Z) :=
  let ls := letters g noUpper in
  let chars := length_ - numDigits - numSymbols in
  if chars <? 0 then Err ErrExceedsTotalLength
  else if negb allowRepeat && (chars >? Z.of_nat (length ls)) then Err ErrLettersExceedsAvailable
  else if negb allowRepeat && (numDigits >? Z.of_nat (length (digits g))) then Err ErrDigitsExceedsAvailable
  else if negb allowRepeat && (numSymbols >? Z.of_nat (length (symbols g))) then Err ErrSymbolsExceedsAvailable
  else
    match pick fuel (Z.to_nat chars) ls allowRepeat [] rng with
    | Ok r1 rng1 =>
        match pick fuel (Z.to_nat numDigits) (digits g) allowRepeat r1 rng1 with
        | Ok r2 rng2 => pick fuel (Z.to_nat numSymbols) (symbols g) allowRepeat r2 rng2
        | x => x
        end
    | x => x
    end.

(** func MustGenerate (generate.go:213-219; the package shortcut is 232-238): the error becomes a panic. *)
Definition MustGenerate (fuel : nat) (g : Generator) (rng : list Z) (length_ numDigits numSymbols : Z)
  (noUpper allowRepeat : bool) : result (list Z) :=
  match Generate fuel g rng length_ numDigits numSymbols noUpper allowRepeat with
  | Err _ => Panic
  | x => x
  end.

(** mock.go:18-39: the mock generator's Generate and MustGenerate. *)
Definition mock_Generate (res : list Z) (err : option gerror) : result (list Z) :=
  match err with Some e => Err e | None => Ok res [] end.
Definition mock_MustGenerate (res : list Z) (err : option gerror) : result (list Z) :=
  match err with Some e => Panic | None => Ok res [] end.
