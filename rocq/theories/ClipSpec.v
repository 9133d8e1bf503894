(** * Specification vocabulary for the clipboard (C41, C54-C56): nothing here depends on how the code chooses or calls. *)
From Coq Require Import String.
From Coq Require Import ZArith List Bool.
From Verif Require Import Utf8 GoStr ClipModel.
Import ListNotations.
Open Scope nat_scope.

(** A clipboard tool on Unix: the programs it needs, the command lines for copying and pasting, whether it is only for Wayland,
    and whether pasting appends CR LF. *)
Record Tool := { needs : list str; copies : list str; pastes : list str; wayland_only : bool; crlf : bool }.
Definition tools : list Tool := [
  {| needs := [lit "wl-copy"; lit "wl-paste"]; copies := [lit "wl-copy"]; pastes := [lit "wl-paste"; lit "--no-newline"]; wayland_only := true; crlf := false |};
  {| needs := [lit "xclip"]; copies := [lit "xclip"; lit "-in"; lit "-selection"; lit "clipboard"]; pastes := [lit "xclip"; lit "-out"; lit "-selection"; lit "clipboard"]; wayland_only := false; crlf := false |};
  {| needs := [lit "xsel"]; copies := [lit "xsel"; lit "--input"; lit "--clipboard"]; pastes := [lit "xsel"; lit "--output"; lit "--clipboard"]; wayland_only := false; crlf := false |};
  {| needs := [lit "termux-clipboard-set"; lit "termux-clipboard-get"]; copies := [lit "termux-clipboard-set"]; pastes := [lit "termux-clipboard-get"]; wayland_only := false; crlf := false |};
  {| needs := [lit "clip.exe"; lit "powershell.exe"]; copies := [lit "clip.exe"]; pastes := [lit "powershell.exe"; lit "Get-Clipboard"]; wayland_only := false; crlf := true |}].
Definition usable (b : Box) (t : Tool) : Prop := (wayland_only t = true -> WAYLAND_DISPLAY b <> []) /\ forall p, In p (needs t) -> LookPath b p = true.
(** The first usable tool. *)
Definition first_usable (b : Box) (t : Tool) : Prop := exists before after, tools = before ++ t :: after /\ usable b t /\ forall t', In t' before -> ~ usable b t'.

(** ** Windows traces *)
Definition is_open_ok (ev : Event) : bool := match ev with (OpenC, r, _) => negb (r =? 0)%Z | _ => false end.
Definition is_open (ev : Event) : bool := match ev with (OpenC, _, _) => true | _ => false end.
Definition is_close (ev : Event) : bool := match ev with (CloseC, _, _) => true | _ => false end.
Definition frees (h : Z) (ev : Event) : bool := match ev with (FreeM h', _, _) => (h' =? h)%Z | _ => false end.
Definition gives (h : Z) (ev : Event) : bool := match ev with (SetData h', r, _) => (h' =? h)%Z && negb (r =? 0)%Z | _ => false end.
Definition count (p : Event -> bool) (evs : list Event) : nat := length (filter p evs).
(** A block of two bytes for each unit of data was allocated and locked at l, l was filled with data, then given to the clipboard, successfully, and the clipboard closed, in this order. *)
Definition handed_over (evs : list Event) (data : list Z) : Prop :=
  exists h l pre e0 evs0 e1 evs1 r2 e2 evs2 r3 e3 evs3 r4 e4, evs = pre ++ (Alloc (2 * length data), h, e0) :: evs0 ++ (Lock h, l, e1) :: evs1 ++ (Strcpy l data, r2, e2) :: evs2 ++ (SetData h, r3, e3) :: evs3 ++ [(CloseC, r4, e4)]
    /\ h <> 0%Z /\ l <> 0%Z /\ r2 <> 0%Z /\ r3 <> 0%Z /\ r4 <> 0%Z.
