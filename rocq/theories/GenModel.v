(** * Model of the whole generate command (cmds/generate.go): password, clipboard, output.

    The password itself is [generate_run] (FormModel.v); here is what happens to it.  The three clipboard back ends are those of
    ClipModel.v; the random source is the list of bytes it will deliver.  --in-place and the pass name are never looked at by the code. *)
From Coq Require Import String.
From Coq Require Import ZArith Arith List Bool.
From Verif Require Import Utf8 GoStr PasswordModel FormModel ClipModel.
Import ListNotations.
Open Scope nat_scope.

(** type GenerateCmd (generate.go:11-21). *)
Record GenerateCmd := { gSymbols : Z; gNumbers : Z; gMixed : bool; gUnique : bool; gClip : bool; gInPlace : bool; gForm : option str; gLength : Z; gPassName : str }.
(** The system the program was built for, with what the clipboard code sees of it. *)
Inductive Machine := OnUnix (b : Box) | OnMac | OnWindows.
(** What the command did: what it printed, the program it started with its input, the API calls it made, and what it returned. *)
Inductive Ended := Returned (e : option gerror) | Crashed.
Record Effect := { printed : str; started : option Spawn; calls : list Event; ended : Ended }.
(** clipboard.Write(text) with its result dropped (generate.go:119-121): the started program, the calls, and whether it came back. *)
Inductive clip_write (text : str) : Machine -> option Spawn -> list Event -> bool -> Prop :=
  | cw_unix b p s ok : WriteUnix (init b) text p = (s, ok) -> clip_write text (OnUnix b) s [] true
  | cw_mac p s ok : WriteMac text p = (s, ok) -> clip_write text OnMac s [] true
  | cw_win evs o : runs (WriteWin text) evs o -> clip_write text OnWindows None evs (match o with PanicW => false | _ => true end).
(** func (a *GenerateCmd) Run (generate.go:23-126).  A run that never ends (password.Generate looping, C12) has no effect. *)
Inductive Generate_Run (m : Machine) (rng : list Z) (a : GenerateCmd) : Effect -> Prop :=
  | gr_error fuel e : generate_run fuel rng (gLength a) (gNumbers a) (gSymbols a) (gMixed a) (gUnique a) (gForm a) = Err e ->
      Generate_Run m rng a {| printed := []; started := None; calls := []; ended := Returned (Some e) |}
  | gr_panic fuel : generate_run fuel rng (gLength a) (gNumbers a) (gSymbols a) (gMixed a) (gUnique a) (gForm a) = Panic ->
      Generate_Run m rng a {| printed := []; started := None; calls := []; ended := Crashed |}
  | gr_plain fuel res rest : generate_run fuel rng (gLength a) (gNumbers a) (gSymbols a) (gMixed a) (gUnique a) (gForm a) = Ok res rest -> gClip a = false ->
      Generate_Run m rng a {| printed := res ++ [10%Z]; started := None; calls := []; ended := Returned None |}
  | gr_clip fuel res rest s evs back : generate_run fuel rng (gLength a) (gNumbers a) (gSymbols a) (gMixed a) (gUnique a) (gForm a) = Ok res rest -> gClip a = true ->
      clip_write res m s evs back ->
      Generate_Run m rng a (if back then {| printed := res ++ [10%Z]; started := s; calls := evs; ended := Returned None |}
                            else {| printed := []; started := s; calls := evs; ended := Crashed |}).
