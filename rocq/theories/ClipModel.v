(** * Model of clipboard/*.go (Unix, macOS and Windows).

    External programs (xclip, pbcopy, ...) and the Windows API are the environment: every call may give any result.  exec.LookPath is
    a predicate on program names.  The contents of the tools' windows or selections are not modelled. *)
From Coq Require Import String.
From Coq Require Import ZArith NArith Arith List Bool.
From Verif Require Import Utf8 GoStr.
Import ListNotations.
Open Scope nat_scope.

(** ** Running a program (os/exec) *)
(** What can go wrong: StdinPipe, Start, writing to the pipe (after some bytes), closing it, and the exit status. *)
Record Proc := { p_pipe : bool; p_start : bool; p_write : option nat; p_close : bool; p_wait : bool }.
(** A started process: its command line and the bytes written to its standard input. *)
Definition Spawn := (list str * str)%type.
(** The common body of write (clipboard_unix.go:130-150, clipboard_darwin.go:32-49): started process, and whether nil is returned. *)
Definition feed (args : list str) (text : str) (p : Proc) : option Spawn * bool :=
  if negb (p_pipe p) then (None, false)
  else if negb (p_start p) then (None, false)
  else match p_write p with
       | Some k => (Some (args, firstn k text), false)
       | None => if negb (p_close p) then (Some (args, text), false) else (Some (args, text), p_wait p)
       end.
(** Cmd.Output: None = error. *)
Definition output (args : list str) (out : list str -> option str) : option str := out args.

(** ** Unix (clipboard_unix.go) *)
Record Box := { WAYLAND_DISPLAY : str; LookPath : str -> bool }.
(** The package variables (clipboard_unix.go:23-48). *)
Record Clip := { Unsupported : bool; Primary : bool; trimDos : bool; pasteCmdArgs : list str; copyCmdArgs : list str }.
Definition xselPasteArgs := [lit "xsel"; lit "--output"; lit "--clipboard"].
Definition xselCopyArgs := [lit "xsel"; lit "--input"; lit "--clipboard"].
Definition xclipPasteArgs := [lit "xclip"; lit "-out"; lit "-selection"; lit "clipboard"].
Definition xclipCopyArgs := [lit "xclip"; lit "-in"; lit "-selection"; lit "clipboard"].
Definition powershellExePasteArgs := [lit "powershell.exe"; lit "Get-Clipboard"].
Definition clipExeCopyArgs := [lit "clip.exe"].
Definition wlpasteArgs := [lit "wl-paste"; lit "--no-newline"].
Definition wlcopyArgs := [lit "wl-copy"].
Definition termuxPasteArgs := [lit "termux-clipboard-get"].
Definition termuxCopyArgs := [lit "termux-clipboard-set"].
(** func init (clipboard_unix.go:50-98); Primary starts false. *)
Definition init (b : Box) : Clip :=
  let st paste copy dos := {| Unsupported := true; Primary := false; trimDos := dos; pasteCmdArgs := paste; copyCmdArgs := copy |} in
  if negb (eqs (WAYLAND_DISPLAY b) []) && (LookPath b (lit "wl-copy") && LookPath b (lit "wl-paste")) then st wlpasteArgs wlcopyArgs false
  else if LookPath b (lit "xclip") then st xclipPasteArgs xclipCopyArgs false
  else if LookPath b (lit "xsel") then st xselPasteArgs xselCopyArgs false
  else if LookPath b (lit "termux-clipboard-set") && LookPath b (lit "termux-clipboard-get") then st termuxPasteArgs termuxCopyArgs false
  else if LookPath b (lit "clip.exe") && LookPath b (lit "powershell.exe") then st powershellExePasteArgs clipExeCopyArgs true
  else st powershellExePasteArgs clipExeCopyArgs true.
(** getPasteCommand / getCopyCommand (clipboard_unix.go:100-112): with Primary only the program's name is kept (and the variable changed). *)
Definition paste_command (c : Clip) : list str := if Primary c then firstn 1 (pasteCmdArgs c) else pasteCmdArgs c.
Definition copy_command (c : Clip) : list str := if Primary c then firstn 1 (copyCmdArgs c) else copyCmdArgs c.
(** func read (clipboard_unix.go:114-128): the started command line, and the text. *)
Definition ReadUnix (c : Clip) (out : list str -> option str) : option (list str) * option str :=
  if Unsupported c then (None, None)
  else
    let args := paste_command c in
    (Some args,
     match output args out with
     | None => None
     | Some r => Some (if trimDos c && (1 <? length r) then firstn (length r - 2) r else r)
     end).
(** func write (clipboard_unix.go:130-150). *)
Definition WriteUnix (c : Clip) (text : str) (p : Proc) : option Spawn * bool :=
  if Unsupported c then (None, false) else feed (copy_command c) text p.

(** ** macOS (clipboard_darwin.go:10-49) *)
Definition ReadMac (out : list str -> option str) : option str := output [lit "pbpaste"] out.
Definition WriteMac (text : str) (p : Proc) : option Spawn * bool := feed [lit "pbcopy"] text p.

(** ** Windows (clipboard_windows.go) *)
(** utf16.Encode and syscall.StringToUTF16 (a zero unit is appended; a string with NUL panics). *)
Definition utf16_rune (r : Z) : list Z :=
  if (65536 <=? r)%Z then [55296 + (r - 65536) / 1024; 56320 + (r - 65536) mod 1024]%Z else [r].
Definition utf16 (rs : list Z) : list Z := concat (map utf16_rune rs).
Definition StringToUTF16 (s : str) : option (list Z) := if existsb (Z.eqb 0) s then None else Some (utf16 (runes s) ++ [0%Z]).
(** syscall.UTF16ToString: cut at the first zero unit, utf16.Decode, encode as UTF-8. *)
Fixpoint until_zero (u : list Z) : list Z := match u with [] => [] | x :: t => if (x =? 0)%Z then [] else x :: until_zero t end.
Fixpoint utf16_decode (u : list Z) : list Z :=
  match u with
  | [] => []
  | a :: t =>
      if ((55296 <=? a) && (a <? 56320))%Z then
        match t with
        | b :: t' => if ((56320 <=? b) && (b <? 57344))%Z then ((a - 55296) * 1024 + (b - 56320) + 65536)%Z :: utf16_decode t' else RuneError :: utf16_decode t
        | [] => [RuneError]
        end
      else if ((56320 <=? a) && (a <? 57344))%Z then RuneError :: utf16_decode t
      else a :: utf16_decode t
  end.
Definition UTF16ToString (u : list Z) : str := utf8 (utf16_decode (until_zero u)).
(** The window of memory read looks at: [1 << 20]uint16 (clipboard_windows.go:75). *)
Definition window : nat := N.to_nat 1048576.

(** The API calls (clipboard_windows.go:18-33). *)
Inductive Sys := IsAvailable | OpenC | CloseC | EmptyC | GetData | Lock (h : Z) | Unlock (h : Z) | Alloc (n : nat) | FreeM (h : Z)
  | Strcpy (l : Z) (data : list Z) | SetData (h : Z)
  | Look (l : Z) (mem : list Z).   (* not a call: reading memory at address l *)
(** An API call with its result and error number, in the order made. *)
Definition Event := (Sys * Z * Z)%type.
Inductive Out := OkText (s : str) | OkNil | Fail (errno : Z) | PanicW.
(** Programs: a call and what follows for each result; waitOpenClipboard; looking at memory. *)
Inductive Prog :=
  | Return (o : Out)
  | Do (c : Sys) (k : Z -> Z -> Prog)
  | Wait (k : option Z -> Prog)
  | Peek (l : Z) (k : list Z -> Prog).
(** waitOpenClipboard (clipboard_windows.go:36-49): tries until OpenClipboard succeeds or the second has passed; the result is the error
    of the last try, nil if there was none.  [last] is that variable. *)
Inductive waits : option Z -> list Event -> option Z -> Prop :=
  | w_late last : waits last [] last
  | w_open last r e : r <> 0%Z -> waits last [(OpenC, r, e)] None
  | w_again last e evs res : waits (Some e) evs res -> waits last ((OpenC, 0%Z, e) :: evs) res.
(** All runs of a program: events and outcome. *)
Inductive runs : Prog -> list Event -> Out -> Prop :=
  | r_ret o : runs (Return o) [] o
  | r_do c k r e evs o : runs (k r e) evs o -> runs (Do c k) ((c, r, e) :: evs) o
  | r_wait k evs1 res evs o : waits None evs1 res -> runs (k res) evs o -> runs (Wait k) (evs1 ++ evs) o
  | r_peek l k mem evs o : runs (k mem) evs o -> runs (Peek l k) ((Look l mem, 0%Z, 0%Z) :: evs) o.
Definition close_then (o : Out) : Prog := Do CloseC (fun _ _ => Return o).
(** func read (clipboard_windows.go:51-89). *)
Definition ReadWin : Prog :=
  Do IsAvailable (fun f e => if (f =? 0)%Z then Return (Fail e) else
  Wait (fun w => match w with Some e => Return (Fail e) | None =>
  Do GetData (fun h e => if (h =? 0)%Z then close_then (Fail e) else
  Do (Lock h) (fun l e => if (l =? 0)%Z then close_then (Fail e) else
  Peek l (fun mem => let text := UTF16ToString (firstn window mem) in
  Do (Unlock h) (fun r e => if (r =? 0)%Z then close_then (Fail e) else
  Do CloseC (fun c e => if (c =? 0)%Z then Return (Fail e) else Return (OkText text)))))) end)).
(** func write (clipboard_windows.go:91-154); the deferred globalFree runs after the closing call. *)
Definition close_free (h : Z) (o : Out) : Prog := Do CloseC (fun _ _ => Do (FreeM h) (fun _ _ => Return o)).
Definition WriteWin (text : str) : Prog :=
  Wait (fun w => match w with Some e => Return (Fail e) | None =>
  Do EmptyC (fun r e => if (r =? 0)%Z then close_then (Fail e) else
  match StringToUTF16 text with None => Return PanicW | Some data =>
  Do (Alloc (length data * 2)) (fun h e => if (h =? 0)%Z then close_then (Fail e) else
  Do (Lock h) (fun l e => if (l =? 0)%Z then close_free h (Fail e) else
  Do (Strcpy l data) (fun r e => if (r =? 0)%Z then close_free h (Fail e) else
  Do (Unlock h) (fun r e => if (r =? 0)%Z && negb (e =? 0)%Z then close_free h (Fail e) else
  Do (SetData h) (fun r e => if (r =? 0)%Z then close_free h (Fail e) else
  Do CloseC (fun c e => if (c =? 0)%Z then Return (Fail e) else Return OkNil))))))
  end) end).
