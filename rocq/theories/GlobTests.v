(** * The model against glob's own unit tests.
    Written by tools/gen_globtests.py from the tables in /repo/glob's test files: every row of every table, as an equation between what
    the model computes and the result the test expects of the code.  These are checks of the model, not properties of the code: no
    claim rests on them. *)
From Coq Require Import ZArith Arith List Bool.
From Verif Require Import Utf8 GoStr GlobLex GlobMatch GlobCompile GlobUtil.
Import ListNotations.
Open Scope nat_scope.

(** Compile, then Match (glob.go:29-43), with more fuel than any of these patterns needs. *)
Definition match_of (pattern : str) (sep : list Z) (s : str) : option bool :=
  match Parse pattern with
  | POk n => match compile_f 100 n sep with Some m => Match m s | None => None end
  | _ => None
  end.

(** /repo/glob/glob_test.go:63, 79 rows. *)
Example test_Glob :
  match_of [42; 32; 63; 97; 116; 32; 42; 32; 101; 121; 101; 115]%Z []%Z [109; 121; 32; 99; 97; 116; 32; 104; 97; 115; 32; 118; 101; 114; 121; 32; 98; 114; 105; 103; 104; 116; 32; 101; 121; 101; 115]%Z = Some true /\
  match_of []%Z []%Z []%Z = Some true /\
  match_of []%Z []%Z [98]%Z = Some false /\
  match_of [42; 195; 164]%Z []%Z [195; 165; 195; 164]%Z = Some true /\
  match_of [97; 98; 99]%Z []%Z [97; 98; 99]%Z = Some true /\
  match_of [97; 42; 99]%Z []%Z [97; 98; 99]%Z = Some true /\
  match_of [97; 42; 99]%Z []%Z [97; 49; 50; 51; 52; 53; 99]%Z = Some true /\
  match_of [97; 63; 99]%Z []%Z [97; 49; 99]%Z = Some true /\
  match_of [97; 46; 98]%Z [46]%Z [97; 46; 98]%Z = Some true /\
  match_of [97; 46; 42]%Z [46]%Z [97; 46; 98]%Z = Some true /\
  match_of [97; 46; 42; 42]%Z [46]%Z [97; 46; 98; 46; 99]%Z = Some true /\
  match_of [97; 46; 63; 46; 99]%Z [46]%Z [97; 46; 98; 46; 99]%Z = Some true /\
  match_of [97; 46; 63; 46; 63]%Z [46]%Z [97; 46; 98; 46; 99]%Z = Some true /\
  match_of [63; 97; 116]%Z []%Z [99; 97; 116]%Z = Some true /\
  match_of [63; 97; 116]%Z []%Z [102; 97; 116]%Z = Some true /\
  match_of [42]%Z []%Z [97; 98; 99]%Z = Some true /\
  match_of [92; 42]%Z []%Z [42]%Z = Some true /\
  match_of [42; 42]%Z [46]%Z [97; 46; 98; 46; 99]%Z = Some true /\
  match_of [63; 97; 116]%Z []%Z [97; 116]%Z = Some false /\
  match_of [63; 97; 116]%Z [102]%Z [102; 97; 116]%Z = Some false /\
  match_of [97; 46; 42]%Z [46]%Z [97; 46; 98; 46; 99]%Z = Some false /\
  match_of [97; 46; 63; 46; 99]%Z [46]%Z [97; 46; 98; 98; 46; 99]%Z = Some false /\
  match_of [42]%Z [46]%Z [97; 46; 98; 46; 99]%Z = Some false /\
  match_of [42; 116; 101; 115; 116]%Z []%Z [116; 104; 105; 115; 32; 105; 115; 32; 97; 32; 116; 101; 115; 116]%Z = Some true /\
  match_of [116; 104; 105; 115; 42]%Z []%Z [116; 104; 105; 115; 32; 105; 115; 32; 97; 32; 116; 101; 115; 116]%Z = Some true /\
  match_of [42; 105; 115; 32; 42]%Z []%Z [116; 104; 105; 115; 32; 105; 115; 32; 97; 32; 116; 101; 115; 116]%Z = Some true /\
  match_of [42; 105; 115; 42; 97; 42]%Z []%Z [116; 104; 105; 115; 32; 105; 115; 32; 97; 32; 116; 101; 115; 116]%Z = Some true /\
  match_of [42; 42; 116; 101; 115; 116; 42; 42]%Z []%Z [116; 104; 105; 115; 32; 105; 115; 32; 97; 32; 116; 101; 115; 116]%Z = Some true /\
  match_of [42; 42; 105; 115; 42; 42; 97; 42; 42; 42; 116; 101; 115; 116; 42]%Z []%Z [116; 104; 105; 115; 32; 105; 115; 32; 97; 32; 116; 101; 115; 116]%Z = Some true /\
  match_of [42; 105; 115]%Z []%Z [116; 104; 105; 115; 32; 105; 115; 32; 97; 32; 116; 101; 115; 116]%Z = Some false /\
  match_of [42; 110; 111; 42]%Z []%Z [116; 104; 105; 115; 32; 105; 115; 32; 97; 32; 116; 101; 115; 116]%Z = Some false /\
  match_of [91; 33; 97; 93; 42]%Z []%Z [116; 104; 105; 115; 32; 105; 115; 32; 97; 32; 116; 101; 115; 116; 51]%Z = Some true /\
  match_of [42; 97; 98; 99]%Z []%Z [97; 98; 99; 97; 98; 99]%Z = Some true /\
  match_of [42; 42; 97; 98; 99]%Z []%Z [97; 98; 99; 97; 98; 99]%Z = Some true /\
  match_of [63; 63; 63]%Z []%Z [97; 98; 99]%Z = Some true /\
  match_of [63; 42; 63]%Z []%Z [97; 98; 99]%Z = Some true /\
  match_of [63; 42; 63]%Z []%Z [97; 99]%Z = Some true /\
  match_of [115; 116; 97]%Z []%Z [115; 116; 97; 103; 110; 97; 116; 105; 111; 110]%Z = Some false /\
  match_of [115; 116; 97; 42]%Z []%Z [115; 116; 97; 103; 110; 97; 116; 105; 111; 110]%Z = Some true /\
  match_of [115; 116; 97; 63]%Z []%Z [115; 116; 97; 103; 110; 97; 116; 105; 111; 110]%Z = Some false /\
  match_of [115; 116; 97; 63; 110]%Z []%Z [115; 116; 97; 103; 110; 97; 116; 105; 111; 110]%Z = Some false /\
  match_of [123; 97; 98; 99; 44; 100; 101; 102; 125; 103; 104; 105]%Z []%Z [100; 101; 102; 103; 104; 105]%Z = Some true /\
  match_of [123; 97; 98; 99; 44; 97; 98; 99; 100; 125; 97]%Z []%Z [97; 98; 99; 100; 97]%Z = Some true /\
  match_of [123; 97; 44; 97; 98; 125; 123; 98; 99; 44; 102; 125]%Z []%Z [97; 98; 99]%Z = Some true /\
  match_of [123; 42; 44; 42; 42; 125; 123; 97; 44; 98; 125]%Z []%Z [97; 98]%Z = Some true /\
  match_of [123; 42; 44; 42; 42; 125; 123; 97; 44; 98; 125]%Z []%Z [97; 99]%Z = Some false /\
  match_of [47; 123; 114; 97; 116; 101; 44; 91; 97; 45; 122; 93; 91; 97; 45; 122; 93; 91; 97; 45; 122; 93; 125; 42]%Z []%Z [47; 114; 97; 116; 101]%Z = Some true /\
  match_of [47; 123; 114; 97; 116; 101; 44; 91; 48; 45; 57; 93; 91; 48; 45; 57; 93; 91; 48; 45; 57; 93; 125; 42]%Z []%Z [47; 114; 97; 116; 101]%Z = Some true /\
  match_of [47; 123; 114; 97; 116; 101; 44; 91; 97; 45; 122; 93; 91; 97; 45; 122; 93; 91; 97; 45; 122; 93; 125; 42]%Z []%Z [47; 117; 115; 100]%Z = Some true /\
  match_of [123; 42; 46; 103; 111; 111; 103; 108; 101; 46; 42; 44; 42; 46; 121; 97; 110; 100; 101; 120; 46; 42; 125]%Z [46]%Z [119; 119; 119; 46; 103; 111; 111; 103; 108; 101; 46; 99; 111; 109]%Z = Some true /\
  match_of [123; 42; 46; 103; 111; 111; 103; 108; 101; 46; 42; 44; 42; 46; 121; 97; 110; 100; 101; 120; 46; 42; 125]%Z [46]%Z [119; 119; 119; 46; 121; 97; 110; 100; 101; 120; 46; 99; 111; 109]%Z = Some true /\
  match_of [123; 42; 46; 103; 111; 111; 103; 108; 101; 46; 42; 44; 42; 46; 121; 97; 110; 100; 101; 120; 46; 42; 125]%Z [46]%Z [121; 97; 110; 100; 101; 120; 46; 99; 111; 109]%Z = Some false /\
  match_of [123; 42; 46; 103; 111; 111; 103; 108; 101; 46; 42; 44; 42; 46; 121; 97; 110; 100; 101; 120; 46; 42; 125]%Z [46]%Z [103; 111; 111; 103; 108; 101; 46; 99; 111; 109]%Z = Some false /\
  match_of [123; 42; 46; 103; 111; 111; 103; 108; 101; 46; 42; 44; 121; 97; 110; 100; 101; 120; 46; 42; 125]%Z [46]%Z [119; 119; 119; 46; 103; 111; 111; 103; 108; 101; 46; 99; 111; 109]%Z = Some true /\
  match_of [123; 42; 46; 103; 111; 111; 103; 108; 101; 46; 42; 44; 121; 97; 110; 100; 101; 120; 46; 42; 125]%Z [46]%Z [121; 97; 110; 100; 101; 120; 46; 99; 111; 109]%Z = Some true /\
  match_of [123; 42; 46; 103; 111; 111; 103; 108; 101; 46; 42; 44; 121; 97; 110; 100; 101; 120; 46; 42; 125]%Z [46]%Z [119; 119; 119; 46; 121; 97; 110; 100; 101; 120; 46; 99; 111; 109]%Z = Some false /\
  match_of [123; 42; 46; 103; 111; 111; 103; 108; 101; 46; 42; 44; 121; 97; 110; 100; 101; 120; 46; 42; 125]%Z [46]%Z [103; 111; 111; 103; 108; 101; 46; 99; 111; 109]%Z = Some false /\
  match_of [42; 47; 47; 123; 44; 42; 46; 125; 101; 120; 97; 109; 112; 108; 101; 46; 99; 111; 109]%Z []%Z [104; 116; 116; 112; 115; 58; 47; 47; 119; 119; 119; 46; 101; 120; 97; 109; 112; 108; 101; 46; 99; 111; 109]%Z = Some true /\
  match_of [42; 47; 47; 123; 44; 42; 46; 125; 101; 120; 97; 109; 112; 108; 101; 46; 99; 111; 109]%Z []%Z [104; 116; 116; 112; 58; 47; 47; 101; 120; 97; 109; 112; 108; 101; 46; 99; 111; 109]%Z = Some true /\
  match_of [42; 47; 47; 123; 44; 42; 46; 125; 101; 120; 97; 109; 112; 108; 101; 46; 99; 111; 109]%Z []%Z [104; 116; 116; 112; 58; 47; 47; 101; 120; 97; 109; 112; 108; 101; 46; 99; 111; 109; 46; 110; 101; 116]%Z = Some false /\
  match_of [91; 97; 45; 122; 93; 91; 33; 97; 45; 120; 93; 42; 99; 97; 116; 42; 91; 104; 93; 91; 33; 98; 93; 42; 101; 121; 101; 115; 42]%Z []%Z [109; 121; 32; 99; 97; 116; 32; 104; 97; 115; 32; 118; 101; 114; 121; 32; 98; 114; 105; 103; 104; 116; 32; 101; 121; 101; 115]%Z = Some true /\
  match_of [91; 97; 45; 122; 93; 91; 33; 97; 45; 120; 93; 42; 99; 97; 116; 42; 91; 104; 93; 91; 33; 98; 93; 42; 101; 121; 101; 115; 42]%Z []%Z [109; 121; 32; 100; 111; 103; 32; 104; 97; 115; 32; 118; 101; 114; 121; 32; 98; 114; 105; 103; 104; 116; 32; 101; 121; 101; 115]%Z = Some false /\
  match_of [103; 111; 111; 103; 108; 101; 46; 99; 111; 109]%Z []%Z [103; 111; 111; 103; 108; 101; 46; 99; 111; 109]%Z = Some true /\
  match_of [103; 111; 111; 103; 108; 101; 46; 99; 111; 109]%Z []%Z [103; 111; 98; 119; 97; 115; 46; 99; 111; 109]%Z = Some false /\
  match_of [104; 116; 116; 112; 115; 58; 47; 47; 42; 46; 103; 111; 111; 103; 108; 101; 46; 42]%Z []%Z [104; 116; 116; 112; 115; 58; 47; 47; 97; 99; 99; 111; 117; 110; 116; 46; 103; 111; 111; 103; 108; 101; 46; 99; 111; 109]%Z = Some true /\
  match_of [104; 116; 116; 112; 115; 58; 47; 47; 42; 46; 103; 111; 111; 103; 108; 101; 46; 42]%Z []%Z [104; 116; 116; 112; 115; 58; 47; 47; 103; 111; 111; 103; 108; 101; 46; 99; 111; 109]%Z = Some false /\
  match_of [123; 104; 116; 116; 112; 115; 58; 47; 47; 42; 46; 103; 111; 111; 103; 108; 101; 46; 42; 44; 42; 121; 97; 110; 100; 101; 120; 46; 42; 44; 42; 121; 97; 104; 111; 111; 46; 42; 44; 42; 109; 97; 105; 108; 46; 114; 117; 125]%Z []%Z [104; 116; 116; 112; 58; 47; 47; 121; 97; 104; 111; 111; 46; 99; 111; 109]%Z = Some true /\
  match_of [123; 104; 116; 116; 112; 115; 58; 47; 47; 42; 46; 103; 111; 111; 103; 108; 101; 46; 42; 44; 42; 121; 97; 110; 100; 101; 120; 46; 42; 44; 42; 121; 97; 104; 111; 111; 46; 42; 44; 42; 109; 97; 105; 108; 46; 114; 117; 125]%Z []%Z [104; 116; 116; 112; 58; 47; 47; 103; 111; 111; 103; 108; 101; 46; 99; 111; 109]%Z = Some false /\
  match_of [123; 104; 116; 116; 112; 115; 58; 47; 47; 42; 103; 111; 98; 119; 97; 115; 46; 99; 111; 109; 44; 104; 116; 116; 112; 58; 47; 47; 101; 120; 99; 108; 117; 100; 101; 46; 103; 111; 98; 119; 97; 115; 46; 99; 111; 109; 125]%Z []%Z [104; 116; 116; 112; 115; 58; 47; 47; 115; 97; 102; 101; 46; 103; 111; 98; 119; 97; 115; 46; 99; 111; 109]%Z = Some true /\
  match_of [123; 104; 116; 116; 112; 115; 58; 47; 47; 42; 103; 111; 98; 119; 97; 115; 46; 99; 111; 109; 44; 104; 116; 116; 112; 58; 47; 47; 101; 120; 99; 108; 117; 100; 101; 46; 103; 111; 98; 119; 97; 115; 46; 99; 111; 109; 125]%Z []%Z [104; 116; 116; 112; 58; 47; 47; 115; 97; 102; 101; 46; 103; 111; 98; 119; 97; 115; 46; 99; 111; 109]%Z = Some false /\
  match_of [123; 104; 116; 116; 112; 115; 58; 47; 47; 42; 103; 111; 98; 119; 97; 115; 46; 99; 111; 109; 44; 104; 116; 116; 112; 58; 47; 47; 101; 120; 99; 108; 117; 100; 101; 46; 103; 111; 98; 119; 97; 115; 46; 99; 111; 109; 125]%Z []%Z [104; 116; 116; 112; 58; 47; 47; 101; 120; 99; 108; 117; 100; 101; 46; 103; 111; 98; 119; 97; 115; 46; 99; 111; 109]%Z = Some true /\
  match_of [123; 97; 98; 99; 42; 91; 97; 45; 99; 93; 100; 101; 102; 44; 97; 98; 99; 63; 91; 100; 45; 103; 93; 100; 101; 102; 44; 97; 98; 99; 91; 122; 116; 101; 93; 63; 100; 101; 102; 125]%Z []%Z [97; 98; 99; 122; 113; 100; 101; 102]%Z = Some true /\
  match_of [123; 97; 98; 99; 42; 100; 101; 102; 44; 97; 98; 99; 63; 100; 101; 102; 44; 97; 98; 99; 91; 122; 116; 101; 93; 100; 101; 102; 125]%Z []%Z [97; 98; 99; 122; 100; 101; 102]%Z = Some true /\
  match_of [97; 98; 99; 42]%Z []%Z [97; 98; 99; 100; 101; 102]%Z = Some true /\
  match_of [97; 98; 99; 42]%Z []%Z [97; 102]%Z = Some false /\
  match_of [42; 100; 101; 102]%Z []%Z [97; 98; 99; 100; 101; 102]%Z = Some true /\
  match_of [42; 100; 101; 102]%Z []%Z [97; 102]%Z = Some false /\
  match_of [97; 98; 42; 101; 102]%Z []%Z [97; 98; 99; 100; 101; 102]%Z = Some true /\
  match_of [97; 98; 42; 101; 102]%Z []%Z [97; 102]%Z = Some false.
Proof. repeat apply conj; vm_compute; reflexivity. Qed.
(** /repo/glob/glob_test.go:179, 4 rows. *)
Example test_QuoteMeta :
  QuoteMeta [91; 102; 111; 111; 42; 93]%Z = [92; 91; 102; 111; 111; 92; 42; 92; 93]%Z /\
  QuoteMeta [123; 102; 111; 111; 42; 125]%Z = [92; 123; 102; 111; 111; 92; 42; 92; 125]%Z /\
  QuoteMeta [42; 63; 92; 91; 93; 123; 125]%Z = [92; 42; 92; 63; 92; 92; 92; 91; 92; 93; 92; 123; 92; 125]%Z /\
  QuoteMeta [115; 111; 109; 101; 32; 116; 101; 120; 116; 32; 97; 110; 100; 32; 42; 63; 92; 91; 93; 123; 125]%Z = [115; 111; 109; 101; 32; 116; 101; 120; 116; 32; 97; 110; 100; 32; 92; 42; 92; 63; 92; 92; 92; 91; 92; 93; 92; 123; 92; 125]%Z.
Proof. repeat apply conj; vm_compute; reflexivity. Qed.
(** /repo/glob/syntax/lexer/lexer_test.go:7, 16 rows. *)
Example test_LexGood :
  Lex []%Z = [TEOF] /\
  Lex [104; 101; 108; 108; 111]%Z = [(TText [104; 101; 108; 108; 111]%Z); TEOF] /\
  Lex [47; 123; 114; 97; 116; 101; 44; 91; 48; 45; 57; 93; 93; 125; 42]%Z = [(TText [47]%Z); TOpen; (TText [114; 97; 116; 101]%Z); TSep; TRangeOpen; (TLo [48]%Z); TBetween; (THi [57]%Z); TRangeClose; (TText [93]%Z); TClose; TAny; TEOF] /\
  Lex [104; 101; 108; 108; 111; 44; 119; 111; 114; 108; 100]%Z = [(TText [104; 101; 108; 108; 111; 44; 119; 111; 114; 108; 100]%Z); TEOF] /\
  Lex [104; 101; 108; 108; 111; 92; 44; 119; 111; 114; 108; 100]%Z = [(TText [104; 101; 108; 108; 111; 44; 119; 111; 114; 108; 100]%Z); TEOF] /\
  Lex [104; 101; 108; 108; 111; 92; 123; 119; 111; 114; 108; 100]%Z = [(TText [104; 101; 108; 108; 111; 123; 119; 111; 114; 108; 100]%Z); TEOF] /\
  Lex [104; 101; 108; 108; 111; 63]%Z = [(TText [104; 101; 108; 108; 111]%Z); TSingle; TEOF] /\
  Lex [104; 101; 108; 108; 111; 102; 42]%Z = [(TText [104; 101; 108; 108; 111; 102]%Z); TAny; TEOF] /\
  Lex [104; 101; 108; 108; 111; 42; 42]%Z = [(TText [104; 101; 108; 108; 111]%Z); TSuper; TEOF] /\
  Lex [91; 230; 151; 165; 45; 232; 170; 158; 93]%Z = [TRangeOpen; (TLo [230; 151; 165]%Z); TBetween; (THi [232; 170; 158]%Z); TRangeClose; TEOF] /\
  Lex [91; 33; 230; 151; 165; 45; 232; 170; 158; 93]%Z = [TRangeOpen; TNot; (TLo [230; 151; 165]%Z); TBetween; (THi [232; 170; 158]%Z); TRangeClose; TEOF] /\
  Lex [91; 230; 151; 165; 230; 156; 172; 232; 170; 158; 93]%Z = [TRangeOpen; (TText [230; 151; 165; 230; 156; 172; 232; 170; 158]%Z); TRangeClose; TEOF] /\
  Lex [91; 33; 230; 151; 165; 230; 156; 172; 232; 170; 158; 93]%Z = [TRangeOpen; TNot; (TText [230; 151; 165; 230; 156; 172; 232; 170; 158]%Z); TRangeClose; TEOF] /\
  Lex [123; 97; 44; 98; 125]%Z = [TOpen; (TText [97]%Z); TSep; (TText [98]%Z); TClose; TEOF] /\
  Lex [47; 123; 122; 44; 97; 98; 125; 42]%Z = [(TText [47]%Z); TOpen; (TText [122]%Z); TSep; (TText [97; 98]%Z); TClose; TAny; TEOF] /\
  Lex [123; 91; 33; 230; 151; 165; 45; 232; 170; 158; 93; 44; 42; 44; 63; 44; 123; 97; 44; 98; 44; 92; 99; 125; 125]%Z = [TOpen; TRangeOpen; TNot; (TLo [230; 151; 165]%Z); TBetween; (THi [232; 170; 158]%Z); TRangeClose; TSep; TAny; TSep; TSingle; TSep; TOpen; (TText [97]%Z); TSep; (TText [98]%Z); TSep; (TText [99]%Z); TClose; TClose; TEOF].
Proof. repeat apply conj; vm_compute; reflexivity. Qed.
(** /repo/glob/syntax/ast/parser_test.go:24, 9 rows. *)
Example test_ParseString :
  parse [(TText [97; 98; 99]%Z); TEOF] None [] [] = POk (NPattern [(NText [97; 98; 99]%Z)]) /\
  parse [(TText [97]%Z); TAny; (TText [99]%Z); TEOF] None [] [] = POk (NPattern [(NText [97]%Z); NAny; (NText [99]%Z)]) /\
  parse [(TText [97]%Z); TSuper; (TText [99]%Z); TEOF] None [] [] = POk (NPattern [(NText [97]%Z); NSuper; (NText [99]%Z)]) /\
  parse [(TText [97]%Z); TSingle; (TText [99]%Z); TEOF] None [] [] = POk (NPattern [(NText [97]%Z); NSingle; (NText [99]%Z)]) /\
  parse [TRangeOpen; TNot; (TLo [97]%Z); TBetween; (THi [122]%Z); TRangeClose; TEOF] None [] [] = POk (NPattern [(NRange true 97%Z 122%Z)]) /\
  parse [TRangeOpen; (TText [97; 122]%Z); TRangeClose; TEOF] None [] [] = POk (NPattern [(NList false [97; 122]%Z)]) /\
  parse [TOpen; (TText [97]%Z); TSep; (TText [122]%Z); TClose; TEOF] None [] [] = POk (NPattern [(NAnyOf [(NPattern [(NText [97]%Z)]); (NPattern [(NText [122]%Z)])])]) /\
  parse [(TText [47]%Z); TOpen; (TText [122]%Z); TSep; (TText [97; 98]%Z); TClose; TAny; TEOF] None [] [] = POk (NPattern [(NText [47]%Z); (NAnyOf [(NPattern [(NText [122]%Z)]); (NPattern [(NText [97; 98]%Z)])]); NAny]) /\
  parse [TOpen; (TText [97]%Z); TSep; TOpen; (TText [120]%Z); TSep; (TText [121]%Z); TClose; TSep; TSingle; TSep; TRangeOpen; (TLo [97]%Z); TBetween; (THi [122]%Z); TRangeClose; TSep; TRangeOpen; TNot; (TText [113; 119; 101]%Z); TRangeClose; TClose; TEOF] None [] [] = POk (NPattern [(NAnyOf [(NPattern [(NText [97]%Z)]); (NPattern [(NAnyOf [(NPattern [(NText [120]%Z)]); (NPattern [(NText [121]%Z)])])]); (NPattern [NSingle]); (NPattern [(NRange false 97%Z 122%Z)]); (NPattern [(NList true [113; 119; 101]%Z)])])]).
Proof. repeat apply conj; vm_compute; reflexivity. Qed.
(** /repo/glob/compiler/compiler_test.go:14, 5 rows. *)
Example test_CommonChildren :
  commonChildren [(NPattern [(NText [97]%Z); (NText [122]%Z); (NText [99]%Z)])] = ([], []) /\
  commonChildren [(NPattern [(NText [97]%Z); (NText [122]%Z); (NText [99]%Z)]); (NPattern [(NText [97]%Z); (NText [98]%Z); (NText [99]%Z)])] = ([(NText [97]%Z)], [(NText [99]%Z)]) /\
  commonChildren [(NPattern [(NText [97]%Z); (NText [98]%Z); (NText [99]%Z); (NText [100]%Z)]); (NPattern [(NText [97]%Z); (NText [98]%Z); (NText [99]%Z); (NText [99]%Z); (NText [100]%Z)])] = ([(NText [97]%Z); (NText [98]%Z)], [(NText [99]%Z); (NText [100]%Z)]) /\
  commonChildren [(NPattern [(NText [97]%Z); (NText [98]%Z); (NText [99]%Z)]); (NPattern [(NText [97]%Z); (NText [98]%Z); (NText [98]%Z); (NText [99]%Z)])] = ([(NText [97]%Z); (NText [98]%Z)], [(NText [99]%Z)]) /\
  commonChildren [(NPattern [(NText [97]%Z); (NText [100]%Z)]); (NPattern [(NText [97]%Z); (NText [100]%Z)]); (NPattern [(NText [97]%Z); (NText [101]%Z)])] = ([(NText [97]%Z)], []).
Proof. repeat apply conj; vm_compute; reflexivity. Qed.
(** /repo/glob/compiler/compiler_test.go:139, 4 rows. *)
Example test_GlueMatchers :
  compileMatchers [MSuper; (MSingle []%Z)] = Some (MMin 1) /\
  compileMatchers [(MAny [46]%Z); (MSingle [46]%Z)] = Some (MEveryOf [(MMin 1); (MContains [46]%Z true)]) /\
  compileMatchers [(MSingle []%Z); (MSingle []%Z); (MSingle []%Z)] = Some (MEveryOf [(MMin 3); (MMax 3)]) /\
  compileMatchers [(MList [97]%Z true); (MAny [97]%Z)] = Some (MEveryOf [(MMin 1); (MContains [97]%Z true)]).
Proof. repeat apply conj; vm_compute; reflexivity. Qed.
(** /repo/glob/compiler/compiler_test.go:196, 3 rows. *)
Example test_CompileMatchers :
  compileMatchers [MSuper; (MSingle [46]%Z); (MText [99]%Z)] = Some (NewBTree (MText [99]%Z) (Some (NewBTree (MSingle [46]%Z) (Some MSuper) None)) None) /\
  compileMatchers [(MAny []%Z); (MText [99]%Z); (MAny []%Z)] = Some (NewBTree (MText [99]%Z) (Some (MAny []%Z)) (Some (MAny []%Z))) /\
  compileMatchers [(MRange 97%Z 99%Z true); (MList [122; 116; 101]%Z false); (MText [99]%Z); (MSingle []%Z)] = Some (MRow [(MRange 97%Z 99%Z true); (MList [122; 116; 101]%Z false); (MText [99]%Z); (MSingle []%Z)] 4%Z).
Proof. repeat apply conj; vm_compute; reflexivity. Qed.
(** /repo/glob/compiler/compiler_test.go:260, 2 rows. *)
Example test_ConvertMatchers :
  minimizeMatchers [(MRange 97%Z 99%Z true); (MList [122; 116; 101]%Z false); (MText [99]%Z); (MSingle []%Z); (MAny []%Z)] = [(MRow [(MRange 97%Z 99%Z true); (MList [122; 116; 101]%Z false); (MText [99]%Z); (MSingle []%Z)] 4%Z); (MAny []%Z)] /\
  minimizeMatchers [(MRange 97%Z 99%Z true); (MList [122; 116; 101]%Z false); (MText [99]%Z); (MSingle []%Z); (MAny []%Z); (MSingle []%Z); (MSingle []%Z); (MAny []%Z)] = [(MRow [(MRange 97%Z 99%Z true); (MList [122; 116; 101]%Z false); (MText [99]%Z)] 3%Z); (MMin 3)].
Proof. repeat apply conj; vm_compute; reflexivity. Qed.
(** /repo/glob/compiler/compiler_test.go:317, 23 rows. *)
Example test_Compiler :
  compile_f 100 (NPattern [(NText [97; 98; 99]%Z)]) []%Z = Some (MText [97; 98; 99]%Z) /\
  compile_f 100 (NPattern [NAny]) [46]%Z = Some (MAny [46]%Z) /\
  compile_f 100 (NPattern [NAny]) []%Z = Some MSuper /\
  compile_f 100 (NPattern [NSuper]) []%Z = Some MSuper /\
  compile_f 100 (NPattern [NSingle]) [46]%Z = Some (MSingle [46]%Z) /\
  compile_f 100 (NPattern [(NRange true 97%Z 122%Z)]) []%Z = Some (MRange 97%Z 122%Z true) /\
  compile_f 100 (NPattern [(NList true [97; 98; 99]%Z)]) []%Z = Some (MList [97; 98; 99]%Z true) /\
  compile_f 100 (NPattern [NAny; NSingle; NSingle; NSingle]) [46]%Z = Some (MEveryOf [(MMin 3); (MContains [46]%Z true)]) /\
  compile_f 100 (NPattern [NAny; NSingle; NSingle; NSingle]) []%Z = Some (MMin 3) /\
  compile_f 100 (NPattern [NAny; (NText [97; 98; 99]%Z); NSingle]) [46]%Z = Some (NewBTree (MRow [(MText [97; 98; 99]%Z); (MSingle [46]%Z)] 4%Z) (Some (MAny [46]%Z)) None) /\
  compile_f 100 (NPattern [(NText [47]%Z); (NAnyOf [(NText [122]%Z); (NText [97; 98]%Z)]); NSuper]) [46]%Z = Some (NewBTree (MText [47]%Z) None (Some (NewBTree (MAnyOf [(MText [122]%Z); (MText [97; 98]%Z)]) None (Some MSuper)))) /\
  compile_f 100 (NPattern [NSuper; NSingle; (NText [97; 98; 99]%Z); NSingle]) [46]%Z = Some (NewBTree (MRow [(MSingle [46]%Z); (MText [97; 98; 99]%Z); (MSingle [46]%Z)] 5%Z) (Some MSuper) None) /\
  compile_f 100 (NPattern [NAny; (NText [97; 98; 99]%Z)]) []%Z = Some (MSuffix [97; 98; 99]%Z) /\
  compile_f 100 (NPattern [(NText [97; 98; 99]%Z); NAny]) []%Z = Some (MPrefix [97; 98; 99]%Z) /\
  compile_f 100 (NPattern [(NText [97; 98; 99]%Z); NAny; (NText [100; 101; 102]%Z)]) []%Z = Some (MPrefixSuffix [97; 98; 99]%Z [100; 101; 102]%Z) /\
  compile_f 100 (NPattern [NAny; NAny; NAny; (NText [97; 98; 99]%Z); NAny; NAny]) []%Z = Some (MContains [97; 98; 99]%Z false) /\
  compile_f 100 (NPattern [NAny; NAny; NAny; (NText [97; 98; 99]%Z); NAny; NAny]) [46]%Z = Some (NewBTree (MText [97; 98; 99]%Z) (Some (MAny [46]%Z)) (Some (MAny [46]%Z))) /\
  compile_f 100 (NPattern [NSuper; NSingle; (NText [97; 98; 99]%Z); NSuper; NSingle]) []%Z = Some (NewBTree (MText [97; 98; 99]%Z) (Some (MMin 1)) (Some (MMin 1))) /\
  compile_f 100 (NPattern [(NText [97; 98; 99]%Z)]) []%Z = Some (MText [97; 98; 99]%Z) /\
  compile_f 100 (NPattern [(NAnyOf [(NPattern [(NAnyOf [(NPattern [(NText [97; 98; 99]%Z)])])])])]) []%Z = Some (MText [97; 98; 99]%Z) /\
  compile_f 100 (NPattern [(NAnyOf [(NPattern [(NText [97; 98; 99]%Z); NSingle]); (NPattern [(NText [97; 98; 99]%Z); (NList false [100; 101; 102]%Z)]); (NPattern [(NText [97; 98; 99]%Z)]); (NPattern [(NText [97; 98; 99]%Z)])])]) []%Z = Some (NewBTree (MText [97; 98; 99]%Z) None (Some (MAnyOf [(MSingle []%Z); (MList [100; 101; 102]%Z false); MNothing]))) /\
  compile_f 100 (NPattern [(NRange false 97%Z 122%Z); (NRange true 97%Z 120%Z); NAny]) []%Z = Some (NewBTree (MRow [(MRange 97%Z 122%Z false); (MRange 97%Z 120%Z true)] 2%Z) None (Some MSuper)) /\
  compile_f 100 (NPattern [(NAnyOf [(NPattern [(NText [97; 98; 99]%Z); (NList false [97; 98; 99]%Z); (NText [103; 104; 105]%Z)]); (NPattern [(NText [97; 98; 99]%Z); (NList false [100; 101; 102]%Z); (NText [103; 104; 105]%Z)])])]) []%Z = Some (MRow [(MText [97; 98; 99]%Z); (MAnyOf [(MList [97; 98; 99]%Z false); (MList [100; 101; 102]%Z false)]); (MText [103; 104; 105]%Z)] 7%Z).
Proof. repeat apply conj; vm_compute; reflexivity. Qed.
(** /repo/glob/match/every_of_test.go:8, 2 rows. *)
Example test_EveryOfIndex :
  Index (MEveryOf [(MAny []%Z); (MText [98]%Z); (MText [99]%Z)]) [100; 98; 99]%Z = Some (None) /\
  Index (MEveryOf [(MAny []%Z); (MPrefix [98]%Z); (MSuffix [99]%Z)]) [97; 98; 99]%Z = Some (Some (1, [2])).
Proof. repeat apply conj; vm_compute; reflexivity. Qed.
(** /repo/glob/match/range_test.go:8, 3 rows. *)
Example test_RangeIndex :
  Index (MRange 97%Z 122%Z false) [97; 98; 99]%Z = Some (Some (0, [1])) /\
  Index (MRange 97%Z 99%Z false) [97; 98; 99; 100]%Z = Some (Some (0, [1])) /\
  Index (MRange 97%Z 99%Z true) [97; 98; 99; 100]%Z = Some (Some (3, [1])).
Proof. repeat apply conj; vm_compute; reflexivity. Qed.
(** /repo/glob/match/list_test.go:8, 2 rows. *)
Example test_ListIndex :
  Index (MList [97; 98]%Z false) [97; 98; 99]%Z = Some (Some (0, [1])) /\
  Index (MList [97; 98]%Z true) [102; 102; 102; 97; 98; 102; 102; 102]%Z = Some (Some (0, [1])).
Proof. repeat apply conj; vm_compute; reflexivity. Qed.
(** /repo/glob/match/any_test.go:8, 2 rows. *)
Example test_AnyIndex :
  Index (MAny [46]%Z) [97; 98; 99]%Z = Some (Some (0, [0; 1; 2; 3])) /\
  Index (MAny [46]%Z) [97; 98; 99; 46; 100; 101; 102]%Z = Some (Some (0, [0; 1; 2; 3])).
Proof. repeat apply conj; vm_compute; reflexivity. Qed.
(** /repo/glob/match/min_test.go:8, 2 rows. *)
Example test_MinIndex :
  Index (MMin 1) [97; 98; 99]%Z = Some (Some (0, [1; 2; 3])) /\
  Index (MMin 3) [97; 98; 99; 100]%Z = Some (Some (0, [3; 4])).
Proof. repeat apply conj; vm_compute; reflexivity. Qed.
(** /repo/glob/match/row_test.go:8, 2 rows. *)
Example test_RowIndex :
  Index (MRow [(MText [97; 98; 99]%Z); (MText [100; 101; 102]%Z); (MSingle []%Z)] 7%Z) [113; 119; 101; 97; 98; 99; 100; 101; 102; 103; 104; 105; 106]%Z = Some (Some (3, [7])) /\
  Index (MRow [(MText [97; 98; 99]%Z); (MText [100; 101; 102]%Z); (MSingle []%Z)] 7%Z) [97; 98; 99; 100]%Z = Some (None).
Proof. repeat apply conj; vm_compute; reflexivity. Qed.
(** /repo/glob/match/suffix_any_test.go:8, 3 rows. *)
Example test_SuffixAnyIndex :
  Index (MSuffixAny [97; 98]%Z [46]%Z) [97; 98]%Z = Some (Some (0, [2])) /\
  Index (MSuffixAny [97; 98]%Z [46]%Z) [99; 97; 98]%Z = Some (Some (0, [3])) /\
  Index (MSuffixAny [97; 98]%Z [46]%Z) [113; 119; 46; 99; 100; 97; 98; 46; 101; 102; 103]%Z = Some (Some (3, [4])).
Proof. repeat apply conj; vm_compute; reflexivity. Qed.
(** /repo/glob/match/max_test.go:8, 2 rows. *)
Example test_MaxIndex :
  Index (MMax 3) [97; 98; 99]%Z = Some (Some (0, [0; 1; 2; 3])) /\
  Index (MMax 3) [97; 98; 99; 100; 101; 102]%Z = Some (Some (0, [0; 1; 2; 3])).
Proof. repeat apply conj; vm_compute; reflexivity. Qed.
(** /repo/glob/match/nothing_test.go:8, 2 rows. *)
Example test_NothingIndex :
  Index MNothing [97; 98; 99]%Z = Some (Some (0, [0])) /\
  Index MNothing []%Z = Some (Some (0, [0])).
Proof. repeat apply conj; vm_compute; reflexivity. Qed.
(** /repo/glob/match/any_of_test.go:8, 3 rows. *)
Example test_AnyOfIndex :
  Index (MAnyOf [(MAny []%Z); (MText [98]%Z); (MText [99]%Z)]) [97; 98; 99]%Z = Some (Some (0, [0; 1; 2; 3])) /\
  Index (MAnyOf [(MPrefix [98]%Z); (MSuffix [99]%Z)]) [97; 98; 99]%Z = Some (Some (0, [3])) /\
  Index (MAnyOf [(MList [91; 100; 101; 102; 93]%Z false); (MList [91; 97; 98; 99; 93]%Z false)]) [97; 98; 99; 100; 101; 102]%Z = Some (Some (0, [1])).
Proof. repeat apply conj; vm_compute; reflexivity. Qed.
(** /repo/glob/match/contains_test.go:8, 4 rows. *)
Example test_ContainsIndex :
  Index (MContains [97; 98]%Z false) [97; 98; 99]%Z = Some (Some (0, [2; 3])) /\
  Index (MContains [97; 98]%Z false) [102; 102; 102; 97; 98; 102; 102; 102]%Z = Some (Some (0, [5; 6; 7; 8])) /\
  Index (MContains [97; 98]%Z true) [97; 98; 99]%Z = Some (Some (0, [0])) /\
  Index (MContains [97; 98]%Z true) [102; 102; 102; 97; 98; 102; 102; 102]%Z = Some (Some (0, [0; 1; 2; 3])).
Proof. repeat apply conj; vm_compute; reflexivity. Qed.
(** /repo/glob/match/suffix_test.go:8, 2 rows. *)
Example test_SuffixIndex :
  Index (MSuffix [97; 98]%Z) [97; 98; 99]%Z = Some (Some (0, [2])) /\
  Index (MSuffix [97; 98]%Z) [102; 102; 102; 97; 98; 102; 102; 102]%Z = Some (Some (0, [5])).
Proof. repeat apply conj; vm_compute; reflexivity. Qed.
(** /repo/glob/match/single_test.go:8, 2 rows. *)
Example test_SingleIndex :
  Index (MSingle [46]%Z) [46; 97; 98; 99]%Z = Some (Some (1, [1])) /\
  Index (MSingle [46]%Z) [46]%Z = Some (None).
Proof. repeat apply conj; vm_compute; reflexivity. Qed.
(** /repo/glob/match/text_test.go:8, 2 rows. *)
Example test_TextIndex :
  Index (MText [98]%Z) [97; 98; 99]%Z = Some (Some (1, [1])) /\
  Index (MText [102]%Z) [97; 98; 99; 100]%Z = Some (None).
Proof. repeat apply conj; vm_compute; reflexivity. Qed.
(** /repo/glob/match/prefix_any_test.go:8, 3 rows. *)
Example test_PrefixAnyIndex :
  Index (MPrefixAny [97; 98]%Z [46]%Z) [97; 98]%Z = Some (Some (0, [2])) /\
  Index (MPrefixAny [97; 98]%Z [46]%Z) [97; 98; 99]%Z = Some (Some (0, [2; 3])) /\
  Index (MPrefixAny [97; 98]%Z [46]%Z) [113; 119; 46; 97; 98; 99; 100; 46; 101; 102; 103]%Z = Some (Some (3, [2; 3; 4])).
Proof. repeat apply conj; vm_compute; reflexivity. Qed.
(** /repo/glob/match/prefix_test.go:8, 2 rows. *)
Example test_PrefixIndex :
  Index (MPrefix [97; 98]%Z) [97; 98; 99]%Z = Some (Some (0, [2; 3])) /\
  Index (MPrefix [97; 98]%Z) [102; 102; 102; 97; 98; 102; 102; 102]%Z = Some (Some (3, [2; 3; 4; 5])).
Proof. repeat apply conj; vm_compute; reflexivity. Qed.
(** /repo/glob/match/super_test.go:8, 2 rows. *)
Example test_SuperIndex :
  Index MSuper [97; 98; 99]%Z = Some (Some (0, [0; 1; 2; 3])) /\
  Index MSuper []%Z = Some (Some (0, [0])).
Proof. repeat apply conj; vm_compute; reflexivity. Qed.
(** /repo/glob/match/prefix_suffix_test.go:8, 3 rows. *)
Example test_PrefixSuffixIndex :
  Index (MPrefixSuffix [97]%Z [99]%Z) [97; 98; 99]%Z = Some (Some (0, [3])) /\
  Index (MPrefixSuffix [102]%Z [102]%Z) [102; 102; 102; 97; 98; 102; 102; 102]%Z = Some (Some (0, [1; 2; 3; 6; 7; 8])) /\
  Index (MPrefixSuffix [97; 98]%Z [98; 99]%Z) [97; 98; 99]%Z = Some (Some (0, [3])).
Proof. repeat apply conj; vm_compute; reflexivity. Qed.
(** /repo/glob/match/match_test.go:13, 2 rows. *)
Example test_AppendMerge :
  appendMerge [0; 6; 7] [0; 1; 3] = [0; 1; 3; 6; 7] /\
  appendMerge [0; 1; 3; 6; 7] [0; 1; 10] = [0; 1; 3; 6; 7; 10].
Proof. repeat apply conj; vm_compute; reflexivity. Qed.
(** /repo/glob/match/btree_test.go:7, 4 rows. *)
Example test_BTree :
  Match (NewBTree (MText [97; 98; 99]%Z) (Some MSuper) (Some MSuper)) [97; 98; 99]%Z = Some true /\
  Match (NewBTree (MText [97]%Z) (Some (MSingle []%Z)) (Some (MSingle []%Z))) [97; 97; 97]%Z = Some true /\
  Match (NewBTree (MText [98]%Z) (Some (MSingle []%Z)) None) [98; 98; 98]%Z = Some false /\
  Match (NewBTree (MText [99]%Z) (Some (NewBTree (MSingle []%Z) (Some MSuper) None)) None) [97; 98; 99]%Z = Some true.
Proof. repeat apply conj; vm_compute; reflexivity. Qed.
(** /repo/glob/util/runes/runes_test.go:29, 18 rows. *)
Example test_runes_RIndex :
  RIndex []%Z []%Z = (0)%Z /\
  RIndex []%Z [97]%Z = (-1)%Z /\
  RIndex []%Z [102; 111; 111]%Z = (-1)%Z /\
  RIndex [102; 111]%Z [102; 111; 111]%Z = (-1)%Z /\
  RIndex [102; 111; 111]%Z [102; 111; 111]%Z = (0)%Z /\
  RIndex [111; 111; 102; 111; 102; 111; 111; 102; 111; 111; 111]%Z [102]%Z = (2)%Z /\
  RIndex [111; 111; 102; 111; 102; 111; 111; 102; 111; 111; 111]%Z [102; 111; 111]%Z = (4)%Z /\
  RIndex [98; 97; 114; 102; 111; 111; 98; 97; 114; 102; 111; 111]%Z [102; 111; 111]%Z = (3)%Z /\
  RIndex [102; 111; 111]%Z []%Z = (0)%Z /\
  RIndex [102; 111; 111]%Z [111]%Z = (1)%Z /\
  RIndex [97; 98; 99; 65; 66; 67; 97; 98; 99]%Z [65]%Z = (3)%Z /\
  RIndex []%Z [97]%Z = (-1)%Z /\
  RIndex [120]%Z [97]%Z = (-1)%Z /\
  RIndex [120]%Z [120]%Z = (0)%Z /\
  RIndex [97; 98; 99]%Z [97]%Z = (0)%Z /\
  RIndex [97; 98; 99]%Z [98]%Z = (1)%Z /\
  RIndex [97; 98; 99]%Z [99]%Z = (2)%Z /\
  RIndex [97; 98; 99]%Z [120]%Z = (-1)%Z.
Proof. repeat apply conj; vm_compute; reflexivity. Qed.
(** /repo/glob/util/runes/runes_test.go:51, 13 rows. *)
Example test_runes_RLastIndex :
  RLastIndex []%Z []%Z = (0)%Z /\
  RLastIndex []%Z [97]%Z = (-1)%Z /\
  RLastIndex []%Z [102; 111; 111]%Z = (-1)%Z /\
  RLastIndex [102; 111]%Z [102; 111; 111]%Z = (-1)%Z /\
  RLastIndex [102; 111; 111]%Z [102; 111; 111]%Z = (0)%Z /\
  RLastIndex [102; 111; 111]%Z [102]%Z = (0)%Z /\
  RLastIndex [111; 111; 102; 111; 102; 111; 111; 102; 111; 111; 111]%Z [102]%Z = (7)%Z /\
  RLastIndex [111; 111; 102; 111; 102; 111; 111; 102; 111; 111; 111]%Z [102; 111; 111]%Z = (7)%Z /\
  RLastIndex [98; 97; 114; 102; 111; 111; 98; 97; 114; 102; 111; 111]%Z [102; 111; 111]%Z = (9)%Z /\
  RLastIndex [102; 111; 111]%Z []%Z = (3)%Z /\
  RLastIndex [102; 111; 111]%Z [111]%Z = (2)%Z /\
  RLastIndex [97; 98; 99; 65; 66; 67; 97; 98; 99]%Z [65]%Z = (3)%Z /\
  RLastIndex [97; 98; 99; 65; 66; 67; 97; 98; 99]%Z [97]%Z = (6)%Z.
Proof. repeat apply conj; vm_compute; reflexivity. Qed.
(** /repo/glob/util/runes/runes_test.go:67, 11 rows. *)
Example test_runes_IndexAny :
  IndexAny []%Z []%Z = (-1)%Z /\
  IndexAny []%Z [97]%Z = (-1)%Z /\
  IndexAny []%Z [97; 98; 99]%Z = (-1)%Z /\
  IndexAny [97]%Z []%Z = (-1)%Z /\
  IndexAny [97]%Z [97]%Z = (0)%Z /\
  IndexAny [97; 97; 97]%Z [97]%Z = (0)%Z /\
  IndexAny [97; 98; 99]%Z [120; 121; 122]%Z = (-1)%Z /\
  IndexAny [97; 98; 99]%Z [120; 99; 122]%Z = (2)%Z /\
  IndexAny [97; 9786; 98; 9787; 99; 9785; 100]%Z [117; 118; 119; 9787; 120; 121; 122]%Z = (3)%Z /\
  IndexAny [97; 82; 101; 103; 69; 120; 112; 42]%Z [46; 40; 124; 41; 42; 43; 63; 94; 36; 91; 93]%Z = (7)%Z /\
  IndexAny [49; 46; 46; 46; 46; 50; 46; 46; 46; 46; 51; 46; 46; 46; 46; 52; 49; 46; 46; 46; 46; 50; 46; 46; 46; 46; 51; 46; 46; 46; 46; 52; 49; 46; 46; 46; 46; 50; 46; 46; 46; 46; 51; 46; 46; 46; 46; 52]%Z [32]%Z = (-1)%Z.
Proof. repeat apply conj; vm_compute; reflexivity. Qed.
(** /repo/glob/util/runes/runes_test.go:96, 4 rows. *)
Example test_runes_Equal :
  Equal [97]%Z [97]%Z = true /\
  Equal [97]%Z [98]%Z = false /\
  Equal [97; 9786; 98; 9787; 99; 9785; 100]%Z [117; 118; 119; 9787; 120; 121; 122]%Z = false /\
  Equal [97; 9786; 98; 9787; 99; 9785; 100]%Z [97; 9786; 98; 9787; 99; 9785; 100]%Z = true.
Proof. repeat apply conj; vm_compute; reflexivity. Qed.
