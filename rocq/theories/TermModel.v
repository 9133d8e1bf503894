(** * Model of qrterminal/qrterminal.go and of the image view in qrterminal/qrcode/qr.go.

    Strings are byte lists.  Output is the list of the arguments of the Write calls, in order; the results of Write are
    ignored by the code (every call is made whatever the writer answers).  Not modelled: a nil Writer, and quiet zones so
    wide that strings.Repeat overflows. *)
From Coq Require Import NArith ZArith Arith List Bool.
From Verif Require Import QrModel.
Import ListNotations.
Open Scope nat_scope.

(** Config (qrterminal.go:28-37), without Level and Writer, which are separate arguments here. *)
Record Config := { HalfBlocks : bool; BlackChar : list N; BlackWhiteChar : list N; WhiteChar : list N; WhiteBlackChar : list N; QuietZone : Z }.

(** func stringRepeat (qrterminal.go:107-112). *)
Definition stringRepeat (s : list N) (count : Z) : list N := if (count <=? 0)%Z then [] else concat (repeat s (Z.to_nat count)).
Definition nl : list N := [10%N].

(** func (c *Config) writeFullBlocks (qrterminal.go:39-59); the loops run i, j = 0 .. Size inclusive. *)
Definition writeFullBlocks (c : Config) (code : Code) : list (list N) :=
  let white := WhiteChar c in
  let black := BlackChar c in
  let w := (Z.of_nat (Size code) + QuietZone c * 2)%Z in
  [stringRepeat (stringRepeat white w ++ nl) (QuietZone c)]
  ++ flat_map (fun i =>
       [stringRepeat white (QuietZone c)]
       ++ map (fun j => if Black code (Z.of_nat j) (Z.of_nat i) then black else white) (seq 0 (S (Size code)))
       ++ [stringRepeat white (QuietZone c - 1) ++ nl]) (seq 0 (S (Size code)))
  ++ [stringRepeat (stringRepeat white w ++ nl) (QuietZone c - 1)].

(** func (c *Config) writeHalfBlocks (qrterminal.go:61-105); i runs over the even numbers up to Size inclusive. *)
Definition writeHalfBlocks (c : Config) (code : Code) : list (list N) :=
  let ww := WhiteChar c in
  let bb := BlackChar c in
  let wb := WhiteBlackChar c in
  let bw := BlackWhiteChar c in
  let q := QuietZone c in
  let w := (Z.of_nat (Size code) + q * 2)%Z in
  (if (Z.rem q 2 =? 0)%Z then [stringRepeat (stringRepeat ww w ++ nl) (Z.quot q 2)]
   else [stringRepeat bw w ++ nl; stringRepeat (stringRepeat ww w ++ nl) (Z.quot q 2)])
  ++ flat_map (fun i =>
       [stringRepeat ww q]
       ++ map (fun j =>
            let next_black := if S i <? Size code then Black code (Z.of_nat j) (Z.of_nat (S i)) else false in
            let curr_black := Black code (Z.of_nat j) (Z.of_nat i) in
            if curr_black && next_black then bb
            else if curr_black && negb next_black then bw
            else if negb curr_black && negb next_black then ww
            else wb) (seq 0 (S (Size code)))
       ++ [stringRepeat ww (q - 1) ++ nl]) (filter Nat.even (seq 0 (S (Size code))))
  ++ (if (Z.rem q 2 =? 0)%Z then [stringRepeat (stringRepeat ww w ++ nl) (Z.quot q 2 - 1); stringRepeat wb w ++ nl]
      else [stringRepeat (stringRepeat ww w ++ nl) (Z.quot q 2)]).

(** func GenerateWithConfig (qrterminal.go:115-126).  None = panic: Encode's error is dropped, so a refused text leaves code
    nil, and both writers read code.Size before the first Write. *)
Definition GenerateWithConfig (text : list N) (level : nat) (config : Config) : option (list (list N)) :=
  let config := if (QuietZone config <? 1)%Z
    then {| HalfBlocks := HalfBlocks config; BlackChar := BlackChar config; BlackWhiteChar := BlackWhiteChar config;
            WhiteChar := WhiteChar config; WhiteBlackChar := WhiteBlackChar config; QuietZone := 1 |}
    else config in
  match Encode text level with
  | Ok code => Some (if HalfBlocks config then writeHalfBlocks config code else writeFullBlocks config code)
  | Error => None
  | Panic => None
  end.

(** The glyphs (qrterminal.go:10-17) and the quiet zone (qrterminal.go:25). *)
Definition WHITE : list N := [27; 91; 52; 55; 109; 32; 32; 27; 91; 48; 109]%N.
Definition BLACK : list N := [27; 91; 52; 48; 109; 32; 32; 27; 91; 48; 109]%N.
Definition BLACK_WHITE : list N := [0xe2; 0x96; 0x84]%N.
Definition BLACK_BLACK : list N := [32]%N.
Definition WHITE_BLACK : list N := [0xe2; 0x96; 0x80]%N.
Definition WHITE_WHITE : list N := [0xe2; 0x96; 0x88]%N.
Definition QUIET_ZONE : Z := 4.
(** func Generate (qrterminal.go:129-138). *)
Definition Generate (text : list N) (level : nat) : option (list (list N)) :=
  GenerateWithConfig text level
    {| HalfBlocks := false; BlackChar := BLACK; BlackWhiteChar := []; WhiteChar := WHITE; WhiteBlackChar := []; QuietZone := QUIET_ZONE |}.
(** func GenerateHalfBlock (qrterminal.go:141-153). *)
Definition GenerateHalfBlock (text : list N) (level : nat) : option (list (list N)) :=
  GenerateWithConfig text level
    {| HalfBlocks := true; BlackChar := BLACK_BLACK; BlackWhiteChar := BLACK_WHITE; WhiteChar := WHITE_WHITE; WhiteBlackChar := WHITE_BLACK; QuietZone := QUIET_ZONE |}.

(** ** The image view (qr.go:79-109) *)
(** codeImage.Bounds (qr.go:95-98): a square of this side from (0,0).  Scale is the Code's field, 8 in what Encode returns. *)
Definition image_side (code : Code) (scale : nat) : nat := (Size code + 8) * scale.
(** codeImage.At (qr.go:100-105): true = black. *)
Definition image_At (code : Code) (x y : Z) : bool := Black code x y.
