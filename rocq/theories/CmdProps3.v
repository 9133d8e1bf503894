(** * C31, C35, C38, C39: commands without a store, and without a word to look for. *)
From Coq Require Import String.
From Coq Require Import ZArith NArith Arith List Bool Lia.
From Verif Require Import GoStr FsModel CmModel RepoModel RepoSpec RepoScan RepoProps CmdModel CmSpec CmdSpec CmdProofs CmdProps.
Import ListNotations.
Open Scope nat_scope.

(** The commands that read the store, whatever their arguments. *)
Inductive reading (lower upper : str -> str) (compile : str -> option Regexp) (w : World) (env : Env) (groot : str) : Outcome -> Prop :=
  | rd_show a o : Show lower w env groot a o -> reading lower upper compile w env groot o
  | rd_list sub o : List_ lower w env groot sub o -> reading lower upper compile w env groot o
  | rd_search a o : Search_ lower w env groot a o -> reading lower upper compile w env groot o
  | rd_grep pat sub o : Grep compile w env groot pat sub o -> reading lower upper compile w env groot o
  | rd_setenv name env' o : SetEnv upper w env groot name env' o -> reading lower upper compile w env groot o.
Lemma reading_scan lower upper compile w env groot o : reading lower upper compile w env groot o ->
  match Scan w (ExpandEnv (getenv env) groot) with Scanned _ => True | RootMissing => o = Done [] [] ERoot | Fatal => o = Exited | ScanPanic => o = Panicked end.
Proof.
  intros H. destruct H as [a o H|sub o H|a o H|pat sub o H|name env' o H].
  1-4: unfold Show, List_, Search_, Grep, after_scan, root_of in H; destruct (Scan w (ExpandEnv (getenv env) groot)); auto.
  destruct H as [o N H|fs order env' out e SC _ _]; unfold root_of in *.
  - unfold after_scan in H. destruct (Scan w (ExpandEnv (getenv env) groot)); auto.
  - rewrite SC. exact I.
Qed.
(** If the store's directory does not exist, every one of them prints nothing and ends with that error; if the path leads through a file, the process
    ends; if it is a file itself, they crash. *)
Theorem C31_without_store lower upper compile w env groot root o : ExpandEnv (getenv env) groot = root -> reading lower upper compile w env groot o ->
  (lookup w root = NotExist -> o = Done [] [] ERoot) /\ (lookup w root = NotDir -> o = Exited) /\ (forall content, lookup w root = Found (File content) -> o = Panicked).
Proof.
  intros <- H. apply reading_scan in H. unfold Scan in H. repeat split; [intros L; rewrite L in H; exact H..|]. intros content L. rewrite L in H. cbn [walk] in H. unfold visit_file in H.
  replace (length (ExpandEnv (getenv env) groot) <? length (ExpandEnv (getenv env) groot) + 1) with true in H by (symmetry; apply Nat.ltb_lt; lia). exact H.
Qed.
Print Assumptions C31_without_store.
(** setenv then leaves the environment as it was. *)
Theorem C36_without_store upper w env groot name env' o : (forall es, lookup w (ExpandEnv (getenv env) groot) <> Found (Dir es)) -> SetEnv upper w env groot name env' o -> env' = env.
Proof.
  intros N H. destruct H as [o _ _|fs order env' out e SC _ _]; [reflexivity|]. exfalso. unfold root_of, Scan in SC. destruct (lookup w (ExpandEnv (getenv env) groot)) as [[es|content]| |] eqn:L; try discriminate SC; [|exact (N _ eq_refl)].
  cbn [walk] in SC. unfold visit_file in SC. replace (length (ExpandEnv (getenv env) groot) <? length (ExpandEnv (getenv env) groot) + 1) with true in SC by (symmetry; apply Nat.ltb_lt; lia). discriminate SC.
Qed.
Print Assumptions C36_without_store.

(** Without a name show prints nothing and reports no error, and so do search and grep without a word to look for. *)
Theorem C35_no_name lower w env groot root es a o : ExpandEnv (getenv env) groot = root -> store_at w root es -> ShowName a = [] -> Show lower w env groot a o -> o = Done [] [] ENil.
Proof.
  intros <- ST E H. destruct (scan_store _ _ _ ST) as [fs [SC _]]. unfold Show, after_scan, root_of in H. rewrite SC, E in H. change (eqs [] []) with true in H. cbv iota in H. subst o.
  unfold show_end, qr_text. destruct (QrCode a); reflexivity.
Qed.
Theorem C38_no_search lower w env groot root es a o : ExpandEnv (getenv env) groot = root -> store_at w root es -> Search a = [] -> Search_ lower w env groot a o -> o = Done [] [] ENil.
Proof. intros <- ST E H. destruct (scan_store _ _ _ ST) as [fs [SC _]]. unfold Search_, after_scan, root_of in H. rewrite SC, E in H. exact H. Qed.
Theorem C39_no_pattern compile w env groot root es sub o : ExpandEnv (getenv env) groot = root -> store_at w root es -> Grep compile w env groot [] sub o -> o = Done [] [] ENil.
Proof. intros <- ST H. destruct (scan_store _ _ _ ST) as [fs [SC _]]. unfold Grep, after_scan, root_of in H. rewrite SC in H. exact H. Qed.
Print Assumptions C35_no_name.
Print Assumptions C38_no_search.
Print Assumptions C39_no_pattern.

(** Non-vacuity: a root that does not exist, one below a file, one that is a file, and a store with entries. *)
Definition nostore : World := {| tree := [(lit "f", File (lit "x"))]; cwd := [] |}.
Example C31_case_without_store env : lookup nostore (lit "/none") = NotExist /\ lookup nostore (lit "/f/vault") = NotDir /\ lookup nostore (lit "/f") = Found (File (lit "x"))
  /\ List_ (fun s => s) nostore env (lit "/none") [] (Done [] [] ERoot) /\ List_ (fun s => s) nostore env (lit "/f/vault") [] Exited /\ List_ (fun s => s) nostore env (lit "/f") [] Panicked.
Proof. repeat apply conj; vm_compute; reflexivity. Qed.
Example C35_case_no_name env : store_at world1 (lit "/vault") vault /\ Show (fun s => s) world1 env (lit "/vault") {| LineNumbers := false; Line := 0; Field := []; QrCode := true; ShowName := [] |} (Done [] [] ENil).
Proof. split; [exact vault_store|]. unfold Show, after_scan. change (root_of env (lit "/vault")) with (lit "/vault"). rewrite ex_scan. reflexivity. Qed.
