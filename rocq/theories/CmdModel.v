(** * Model of cmds/*.go and main.go.

    Commands are relations between the world (file system, environment) and what they print and return; the relations are
    nondeterministic in the iteration order of maps, the chunking of reads and the schedules of the matcher's workers.
    strings.ToLower/ToUpper are parameters; regexp is a parameter (a compiled pattern is a match test and a leftmost-match
    function).  Printing never fails.  The command line parser (kong) is not modelled: commands start from their argument
    structs.  generate is modelled in PasswordModel.v and FormModel.v. *)
From Coq Require Import String DecimalString.
From Coq Require Import ZArith NArith Arith List Bool Permutation.
From Verif Require Import GoStr FsModel CmModel RepoModel TermModel.
Import ListNotations.
Open Scope nat_scope.

(** fmt's %d of a non-negative number. *)
Definition dec (n : nat) : str := lit (NilZero.string_of_uint (Nat.to_uint n)).
Definition nl : str := [10%Z].
(** The environment: os.Getenv gives "" for an unset variable. *)
Definition Env := str -> option str.
Definition getenv (env : Env) (k : str) : str := match env k with Some v => v | None => [] end.
(** os.Setenv: refused (error ignored by the code) for an empty key, a key with '=' or NUL, and a value with NUL. *)
Definition setenv (env : Env) (k v : str) : Env :=
  if eqs k [] || existsb (fun c => (c =? 61) || (c =? 0))%Z k || existsb (fun c => c =? 0)%Z v then env
  else fun x => if str_dec x k then Some v else env x.

(** What a command returns: it ends with an error or not, the process exits in Scan (log.Fatalf), or it panics. *)
Inductive Err := ENil | ERoot | ENoFile | ERegexp | ELine (e : LErr) | ECreate.
Inductive Outcome := Done (stdout stderr : str) (e : Err) | Exited | Panicked.

(** The scan every command starts with: r.Root = os.ExpandEnv(globals.Root); r.Scan() (show.go:26-30 and the same in list.go,
    search.go, grep.go, setenv.go). *)
Definition root_of (env : Env) (globals_root : str) : str := ExpandEnv (getenv env) globals_root.
Definition after_scan (w : World) (root : str) (k : Files -> Outcome -> Prop) (o : Outcome) : Prop :=
  match Scan w root with
  | Scanned fs => k fs o
  | RootMissing => o = Done [] [] ERoot
  | Fatal => o = Exited
  | ScanPanic => o = Panicked
  end.
(** closestmatch.New(words, []int{2}) and a query; the words are the files in one iteration order. *)
Definition closest_of (lower : str -> str) (words : list str) (q : str) (k : str -> Outcome -> Prop) (o : Outcome) : Prop :=
  exists cm, New lower words [2] cm /\ ((crashes cm q /\ o = Panicked) \/ exists res, Closest cm q res /\ k res o).

(** ** show *)
Record ShowCmd := { LineNumbers : bool; Line : Z; Field : str; QrCode : bool; ShowName : str }.
(** The state the handler of show closes over: output, qrcode, fullQrCode. *)
Definition ShowState := (str * str * str)%type.
(** The line handler (show.go:55-79). *)
Definition show_handler (a : ShowCmd) (n : nat) (line : str) (st : ShowState) : ShowState * HErr :=
  let '(out, qr, full) := st in
  let qr1 := if QrCode a && (Z.of_nat n =? Line a)%Z then line else qr in
  let qr2 := if QrCode a && negb (eqs (Field a) []) && HasPrefix line (Field a) then line else qr1 in
  let full' := if QrCode a then full ++ lit " / " ++ line else full in
  let out' :=
    if LineNumbers a then out ++ dec n ++ lit ": " ++ line ++ nl
    else if (0 <? Line a)%Z then (if (Line a =? Z.of_nat n)%Z then out ++ line ++ nl else out)
    else out ++ line ++ nl in
  ((out', qr2, full'), HNil).
(** fmt.Printf("Error: %s\n", err.Error()) (show.go:80-82); the text of an open error depends on the system. *)
Definition error_line (e : LErr) : str :=
  match e with LNil => [] | LBinary => lit "Error: cannot show binary file" ++ nl | LOpen => lit "Error: open" ++ nl end.
(** strings.Index(s, ":"): the text up to and including the first colon removed (show.go:95-100); the HasPrefix test always holds. *)
Fixpoint after_colon (s : str) : option str := match s with [] => None | c :: t => if (c =? 58)%Z then Some t else after_colon t end.
Definition strip_field (s : str) : str := match after_colon s with Some t => t | None => s end.
(** qrterminal.Generate(text, L, os.Stdout) (TermModel.v); None = panic. *)
Definition qr_print (text : str) : option str :=
  match Generate (map Z.to_N text) 0 with Some ws => Some (map Z.of_N (concat ws)) | None => None end.
(** The text a QR code is made of (show.go:87-104): None = no code, Some None = slice panic. *)
Definition qr_text (a : ShowCmd) (qr full : str) : option (option str) :=
  if QrCode a then
    match qr with
    | _ :: _ => if length qr <? length (Field a) then Some None else Some (Some (strip_field (TrimSpace (skipn (length (Field a)) qr))))
    | [] => match full with _ :: _ => Some (Some full) | [] => None end
    end
  else None.
Definition show_end (a : ShowCmd) (st : ShowState) : Outcome :=
  let '(out, qr, full) := st in
  match qr_text a qr full with
  | None => Done out [] ENil
  | Some None => Panicked
  | Some (Some t) => match qr_print t with Some p => Done (out ++ p) [] ENil | None => Panicked end
  end.
(** func (a *ShowCmd) Run (show.go:25-108). *)
Definition Show (lower : str -> str) (w : World) (env : Env) (groot : str) (a : ShowCmd) : Outcome -> Prop :=
  let root := root_of env groot in
  after_scan w root (fun fs o =>
    if eqs (ShowName a) [] then o = show_end a ([], [], [])
    else exists order, in_order fs order /\
      closest_of lower order (ShowName a) (fun filename o =>
        match filename with
        | [] => o = show_end a ([], [], [])
        | _ =>
            let full := Join root filename in
            match lookup w full with
            | NotExist => o = Done [] [] ENoFile
            | _ => exists out qr fq e,
                GetFileContentByLine (show_handler a) w full (lit "Pass '" ++ filename ++ lit "'" ++ nl ++ nl, [], []) (out, qr, fq) e
                /\ o = show_end a (out ++ error_line e, qr, fq)
            end
        end) o).

(** ** list and search *)
(** println(f) writes to standard error. *)
Definition printlns (l : list str) : str := concat (map (fun f => f ++ nl) l).
(** func (a *ListCmd) Run (list.go:22-50); ranging over the keys of r.Files gives the categories in some order. *)
Definition List_ (lower : str -> str) (w : World) (env : Env) (groot : str) (sub : str) : Outcome -> Prop :=
  after_scan w (root_of env groot) (fun fs o =>
    match sub with
    | [] => exists order, in_order fs order /\ o = Done [] (printlns order) ENil
    | _ => exists cats, Permutation cats (map fst fs) /\
        closest_of lower cats sub (fun closest o => o = Done [] (printlns (match get str_dec fs closest with Some l => l | None => [] end)) ENil) o
    end).
(** strings.Contains. *)
Fixpoint contains (s sub : str) : bool := HasPrefix s sub || match s with [] => false | _ :: t => contains t sub end.
(** What search and grep print for a file (search.go:59-66, grep.go:71-78). *)
Definition print_matches (f : str) (ms : list (nat * str)) : str :=
  match ms with
  | [] => []
  | _ => lit "Matches found in '" ++ f ++ lit "'" ++ nl ++ concat (map (fun m => dec (fst m) ++ lit ": " ++ snd m ++ nl) ms)
  end.
Inductive search_print (w : World) (root : str) (p : str -> bool) : list str -> str -> Prop :=
  | sp_nil : search_print w root p [] []
  | sp_cons f fs ms out : SearchInFile w (Join root f) (yes_no p) ms -> search_print w root p fs out -> search_print w root p (f :: fs) (print_matches f ms ++ out).
Record SearchCmd := { Fuzzy : Z; Search : str; Content : str }.
(** func (a *SearchCmd) Run (search.go:26-74); make([]string, 0, max) panics for a negative max. *)
Definition Search_ (lower : str -> str) (w : World) (env : Env) (groot : str) (a : SearchCmd) : Outcome -> Prop :=
  let root := root_of env groot in
  after_scan w root (fun fs o =>
    match Search a with
    | [] => o = Done [] [] ENil
    | q => exists order, in_order fs order /\ exists cm, New lower order [2] cm /\
        if (Fuzzy a <? 0)%Z then o = Panicked
        else (crashes cm q /\ o = Panicked) \/ exists res, ClosestN cm q (Z.to_nat (Fuzzy a)) res /\
          match Content a with
          | [] => o = Done [] (printlns res) ENil
          | c => exists out, search_print w root (fun line => contains line c) res out /\ o = Done out [] ENil
          end
    end).

(** ** grep *)
Record Regexp := { rx_match : str -> bool; rx_find : str -> str }.
(** The line test (grep.go:55-67). *)
Definition grep_test (rx : Regexp) (sx : option Regexp) (text : str) : bool :=
  if rx_match rx text then match sx with None => true | Some s => rx_match s (rx_find rx text) end else false.
(** func (a *GrepCmd) Run (grep.go:28-83); compile = regexp.Compile. *)
Definition Grep (compile : str -> option Regexp) (w : World) (env : Env) (groot : str) (pat sub : str) : Outcome -> Prop :=
  let root := root_of env groot in
  after_scan w root (fun fs o =>
    match pat with
    | [] => o = Done [] [] ENil
    | _ =>
        match compile pat with
        | None => o = Done [] [] ERegexp
        | Some rx =>
            match (match sub with [] => Some None | _ => match compile sub with Some s => Some (Some s) | None => None end end) with
            | None => o = Done [] [] ERegexp
            | Some sx => exists order out, in_order fs order /\ search_print w root (grep_test rx sx) order out /\ o = Done out [] ENil
            end
        end
    end).

(** ** set-env *)
(** The line handler (setenv.go:30-45): state = pw, environment, output. *)
Definition trim_prefix (s p : str) : str := if HasPrefix s p then skipn (length p) s else s.
Definition env_handler (upper : str -> str) (n : nat) (text : str) (st : str * Env * str) : (str * Env * str) * HErr :=
  let '(pw, env, out) := st in
  if n =? 1 then ((text, env, out), HNil)
  else if HasPrefix text (lit "env:") then
    let key := upper (TrimSpace (trim_prefix text (lit "env:"))) in
    ((pw, setenv env key pw, out ++ key ++ lit "=" ++ pw ++ nl), HNil)
  else (st, HNil).
(** The loop over the files (setenv.go:25-52): the first error ends it. *)
Inductive setenv_files (upper : str -> str) (w : World) (root name : str) : list str -> Env -> str -> Env -> str -> Err -> Prop :=
  | se_nil env out : setenv_files upper w root name [] env out env out ENil
  | se_skip f fs env out env' out' e : f <> name -> name <> [] -> setenv_files upper w root name fs env out env' out' e ->
      setenv_files upper w root name (f :: fs) env out env' out' e
  | se_file f fs env out pw env1 out1 env' out' e : f = name \/ name = [] ->
      GetFileContentByLine (env_handler upper) w (Join root f) ([], env, out) (pw, env1, out1) LNil ->
      setenv_files upper w root name fs env1 out1 env' out' e -> setenv_files upper w root name (f :: fs) env out env' out' e
  | se_error f fs env out pw env1 out1 e : f = name \/ name = [] ->
      GetFileContentByLine (env_handler upper) w (Join root f) ([], env, out) (pw, env1, out1) e -> e <> LNil ->
      setenv_files upper w root name (f :: fs) env out env1 out1 (ELine e).
(** func (a *SetEnvCmd) Run (setenv.go:18-55): the environment of the process afterwards. *)
Inductive SetEnv (upper : str -> str) (w : World) (env : Env) (groot name : str) : Env -> Outcome -> Prop :=
  | se_scan o : (forall fs, Scan w (root_of env groot) <> Scanned fs) -> after_scan w (root_of env groot) (fun _ _ => False) o -> SetEnv upper w env groot name env o
  | se_run fs order env' out e : Scan w (root_of env groot) = Scanned fs -> in_order fs order ->
      setenv_files upper w (root_of env groot) name order env [] env' out e -> SetEnv upper w env groot name env' (Done out [] e).

(** ** insert and the commands that only print *)
(** func (c *InsertCmd) Run (insert.go:18-38): globals.Root is not expanded; the source is read after the target has been created
    (truncated); the result of io.Copy is dropped.  file = None: only a prompt is printed (the answer is read and dropped). *)
Definition Insert (w : World) (groot : str) (file : option str) (name : str) : World * Outcome :=
  match file with
  | Some src =>
      let target := Join groot name in
      match create w target [] with
      | None => (w, Done [] [] ECreate)
      | Some w1 =>
          let content := match open_read w1 src with Some c => c | None => [] end in
          match create w1 target content with Some w2 => (w2, Done [] [] ENil) | None => (w1, Done [] [] ENil) end
      end
  | None => (w, Done (lit "site: ") [] ENil)
  end.
Definition bool_text (b : bool) : str := if b then lit "true" else lit "false".
(** func (c *InitCmd) Run (init.go:16-19). *)
Definition Init (w : World) (sub : str) : World * Outcome := (w, Done (lit "Folder: " ++ sub ++ nl) [] ENil).
(** func (a *RemoveCmd) Run (remove.go:21-27). *)
Definition Remove (w : World) (recursive force : bool) (name : str) : World * Outcome :=
  (w, Done (lit "Recursive: " ++ bool_text recursive ++ nl ++ lit "Force: " ++ bool_text force ++ nl ++ lit "Pass name: " ++ name ++ nl) [] ENil).
(** func (c *RenameCmd) Run (rename.go:21-26) and (c *CopyCmd) Run (copy.go:23-28). *)
Definition Rename (w : World) (force : bool) (old new : str) : World * Outcome :=
  (w, Done (lit "Force: " ++ bool_text force ++ nl ++ lit "Old path: " ++ old ++ nl ++ lit "New path: " ++ new ++ nl) [] ENil).
Definition Copy (w : World) (force : bool) (old new : str) : World * Outcome := Rename w force old new.
(** func (a *QueryCmd) Run (query.go:25-31). *)
Definition Query (w : World) (q : str) : World * Outcome := (w, Done [] [] ENil).

(** ** main *)
Inductive OS := Windows | Linux | Darwin | OtherOS.
(** main (main.go:30-57): the root the commands get, given the --root flag. *)
Definition main_root (os : OS) (flag : str) : str :=
  match os with
  | Windows => lit "E:\Dev.Keybase\Vault"
  | Linux | Darwin => lit "$HOME/Documents/Vault"
  | OtherOS => flag
  end.
