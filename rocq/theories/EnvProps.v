(** * C66: variable references in the root path. *)
From Coq Require Import String.
From Coq Require Import ZArith Arith List Bool Lia.
From Verif Require Import GoStr FsModel EnvSpec CmdModel.
Import ListNotations.
Open Scope nat_scope.

Lemma alnum_iff c : alnum c = true <-> name_char c.
Proof. unfold alnum, name_char. rewrite !orb_true_iff, !andb_true_iff, !Z.leb_le, Z.eqb_eq. lia. Qed.
Lemma special_iff c : special c = true <-> one_char_var c.
Proof.
  unfold special, one_char_var. rewrite orb_true_iff, andb_true_iff, !Z.leb_le, existsb_exists. split.
  - intros [[x [I E]]|H]; [right; apply Z.eqb_eq in E; subst x; exact I|left; exact H].
  - intros [H|I]; [right; exact H|left; exists c; split; [exact I|apply Z.eqb_refl]].
Qed.
Lemma special_not_brace c : special c = true -> c <> 123%Z /\ c <> 125%Z.
Proof. intros H. split; intros ->; vm_compute in H; discriminate. Qed.

(** What getShellName returns, case by case. *)
Inductive shell_name : str -> str -> nat -> Prop :=
  | sn_braces n s : n <> [] -> ~ In 125%Z n -> shell_name (123%Z :: n ++ 125%Z :: s) n (length n + 2)
  | sn_empty s : shell_name (123%Z :: 125%Z :: s) [] 2
  | sn_unclosed s : ~ In 125%Z s -> shell_name (123%Z :: s) [] 1
  | sn_one c s : special c = true -> shell_name (c :: s) [c] 1
  | sn_name n s : n <> [] -> (forall c t, n = c :: t -> special c = false) -> Forall (fun c => alnum c = true) n -> (forall c t, s = c :: t -> alnum c = false) -> shell_name (n ++ s) n (length n)
  | sn_none s : (forall c t, s = c :: t -> alnum c = false /\ special c = false /\ c <> 123%Z) -> shell_name s [] 0.

Lemma takew_split {A} (f : A -> bool) l : exists r, l = takew f l ++ r /\ Forall (fun a => f a = true) (takew f l) /\ (forall a t, r = a :: t -> f a = false).
Proof.
  induction l as [|a l [r [E [F N]]]]; cbn; [exists []; repeat split; auto; discriminate|].
  destruct (f a) eqn:Fa.
  - exists r. repeat split; [cbn; f_equal; exact E|constructor; assumption|exact N].
  - exists (a :: l). repeat split; auto. intros ? ? H; injection H as -> ->; exact Fa.
Qed.
Lemma takew_app {A} (f : A -> bool) n s : Forall (fun a => f a = true) n -> (forall a t, s = a :: t -> f a = false) -> takew f (n ++ s) = n.
Proof.
  intros F N. induction F as [|a n Fa F IH]; cbn.
  - destruct s as [|b s]; cbn; [reflexivity|]. rewrite (N b s eq_refl). reflexivity.
  - rewrite Fa. f_equal. exact IH.
Qed.
Lemma nobrace n : ~ In 125%Z n <-> Forall (fun x => negb (x =? 125)%Z = true) n.
Proof.
  rewrite Forall_forall. split.
  - intros H x I. apply negb_true_iff, Z.eqb_neq. intros ->. exact (H I).
  - intros H I. apply H in I. discriminate.
Qed.

Definition brace_case (t : str) : str * nat :=
  let name := takew (fun x => negb (x =? 125)%Z) t in
  if length name =? length t then ([], 1) else if length name =? 0 then ([], 2) else (name, length name + 2).
Lemma brace_some n s : ~ In 125%Z n -> brace_case (n ++ 125%Z :: s) = match n with [] => ([], 2) | _ => (n, length n + 2) end.
Proof.
  intros H. unfold brace_case. rewrite takew_app; [|apply nobrace; exact H|intros a t E; injection E as <- _; reflexivity].
  rewrite app_length. cbn [length]. destruct (length n =? length n + S (length s)) eqn:E; [apply Nat.eqb_eq in E; lia|].
  destruct n; reflexivity.
Qed.
Lemma brace_none t : ~ In 125%Z t -> brace_case t = ([], 1).
Proof.
  intros H. unfold brace_case. pose proof (takew_app (fun x => negb (x =? 125)%Z) t []) as E. rewrite app_nil_r in E.
  rewrite E; [|apply nobrace; exact H|discriminate]. rewrite Nat.eqb_refl. reflexivity.
Qed.
Lemma getShellName_brace t : getShellName (123%Z :: t) = brace_case t.
Proof.
  cbn [getShellName Z.eqb Pos.eqb]. destruct t as [|d [|e t]]; try reflexivity.
  destruct (special d) eqn:Sd; [|reflexivity]. destruct (e =? 125)%Z eqn:E; [|reflexivity].
  apply Z.eqb_eq in E. subst e. cbn [andb]. change (d :: 125%Z :: t) with ([d] ++ 125%Z :: t).
  rewrite brace_some; [reflexivity|]. intros [->|[]]. apply special_not_brace in Sd. lia.
Qed.
Lemma getShellName_sound s n w : shell_name s n w -> getShellName s = (n, w).
Proof.
  intros H. destruct H as [n s Hn Hb|s|s H|c s H|n s Hn Hd F N|s H].
  - rewrite getShellName_brace, brace_some by exact Hb. destruct n; [congruence|reflexivity].
  - rewrite getShellName_brace. change (125%Z :: s) with ([] ++ 125%Z :: s). apply brace_some. intros [].
  - rewrite getShellName_brace. apply brace_none; exact H.
  - unfold getShellName. destruct (special_not_brace c H) as [H1 _]. apply Z.eqb_neq in H1. rewrite H1, H. reflexivity.
  - destruct n as [|c n]; [congruence|]. pose proof (Hd _ _ eq_refl) as Sc. assert (B : (c =? 123)%Z = false).
    { apply Z.eqb_neq. intros ->. inversion F as [|? ? A ?]; subst. vm_compute in A. discriminate. }
    assert (E : getShellName ((c :: n) ++ s) = (takew alnum ((c :: n) ++ s), length (takew alnum ((c :: n) ++ s)))).
    { unfold getShellName. cbn [app]. rewrite B, Sc. reflexivity. }
    rewrite E, takew_app by assumption. reflexivity.
  - destruct s as [|c s]; [reflexivity|]. destruct (H c s eq_refl) as [A [Sc B]]. apply Z.eqb_neq in B.
    unfold getShellName. rewrite B, Sc. cbn [takew]. rewrite A. reflexivity.
Qed.
Lemma shell_name_total s : exists n w, shell_name s n w.
Proof.
  destruct s as [|c s]; [exists [], 0; constructor; discriminate|].
  destruct (Z.eq_dec c 123) as [->|B].
  - destruct (in_dec Z.eq_dec 125%Z s) as [I|I]; [|exists [], 1; constructor; exact I].
    destruct (takew_split (fun x => negb (x =? 125)%Z) s) as [r [E [F N]]]. revert E F N. generalize (takew (fun x => negb (x =? 125)%Z) s). intros n E F N.
    apply nobrace in F. destruct r as [|b r].
    + exfalso. rewrite app_nil_r in E. subst s. exact (F I).
    + pose proof (N b r eq_refl) as Nb. cbn in Nb. apply negb_false_iff, Z.eqb_eq in Nb. subst b. rewrite E. destruct n as [|a n].
      * exists [], 2. apply sn_empty.
      * exists (a :: n), (length (a :: n) + 2). constructor; [discriminate|exact F].
  - destruct (special c) eqn:Sc; [exists [c], 1; constructor; exact Sc|].
    destruct (alnum c) eqn:A.
    + destruct (takew_split alnum (c :: s)) as [r [E [F N]]]. cbn [takew] in E, F. rewrite A in E, F.
      rewrite E. exists (c :: takew alnum s), (length (c :: takew alnum s)). constructor; [discriminate|intros ? ? H; injection H as <- _; exact Sc|exact F|exact N].
    + exists [], 0. constructor. intros ? ? H; injection H as <- _. auto.
Qed.
Lemma not_true b : b = false <-> ~ b = true. Proof. destruct b; split; congruence. Qed.

Lemma expand_dollar f env t n w : t <> [] -> shell_name t n w ->
  expand (S f) env (36%Z :: t) = (match n with [] => if w =? 0 then lit "$" else [] | _ => env n end) ++ expand f env (skipn w t).
Proof. intros Ht H. apply getShellName_sound in H. destruct t as [|c t]; [congruence|]. cbn [expand Z.eqb Pos.eqb]. rewrite H. reflexivity. Qed.
Lemma skipn_app_exact {A} (l r : list A) : skipn (length l) (l ++ r) = r.
Proof. induction l; cbn; auto. Qed.

Lemma sound env s out : expands env s out -> forall f, length s <= f -> expand f env s = out.
Proof.
  induction 1 as [|c s out Hc _ IH|n s out Hb Hd F N H IH|c s out Hc H IH|n s out Hn Hb H IH|s out H IH|s out Hb H IH|s out Hb H IH]; intros f L.
  - destruct f; reflexivity.
  - cbn [length] in L. destruct f as [|f]; [lia|]. destruct s as [|d s].
    + rewrite <- (IH f) by (cbn; lia). destruct f; reflexivity.
    + apply Z.eqb_neq in Hc. cbn [expand]. rewrite Hc. f_equal. apply IH. cbn [length] in *. lia.
  - destruct f as [|f]; [cbn in L; lia|]. change (lit "$" ++ n ++ s) with (36%Z :: n ++ s) in *. destruct n as [|c n]; [destruct Hb|].
    rewrite (expand_dollar f env _ (c :: n) (length (c :: n))); [|discriminate|].
    + rewrite skipn_app_exact. f_equal. apply IH. cbn [length] in L. rewrite app_length in L. cbn [length] in L. lia.
    + apply sn_name; [discriminate| | |].
      * intros ? ? E; injection E as <- <-. apply not_true. rewrite special_iff. exact Hd.
      * eapply Forall_impl; [|exact F]. intros; apply alnum_iff; assumption.
      * intros ? ? ->. apply not_true. rewrite alnum_iff. exact N.
  - destruct f as [|f]; [cbn in L; lia|]. change (lit "$" ++ [c] ++ s) with (36%Z :: c :: s) in *.
    rewrite (expand_dollar f env _ [c] 1); [|discriminate|constructor; apply special_iff; exact Hc]. cbn [skipn]. f_equal. apply IH. cbn [length] in L. lia.
  - destruct f as [|f]; [cbn in L; lia|]. change (lit "${" ++ n ++ lit "}" ++ s) with (36%Z :: 123%Z :: n ++ 125%Z :: s) in *.
    rewrite (expand_dollar f env _ n (length n + 2)); [|discriminate|constructor; assumption].
    assert (K : skipn (length n + 2) (123%Z :: n ++ 125%Z :: s) = s).
    { replace (123%Z :: n ++ 125%Z :: s) with ((123%Z :: n ++ [125%Z]) ++ s) by (cbn; rewrite <- app_assoc; reflexivity).
      replace (length n + 2) with (length (123%Z :: n ++ [125%Z])) by (cbn [length]; rewrite app_length; cbn [length]; lia). apply skipn_app_exact. }
    rewrite K. destruct n; [congruence|]. f_equal. apply IH. cbn [length] in L. rewrite app_length in L. cbn [length] in L. lia.
  - destruct f as [|f]; [cbn in L; lia|]. change (lit "${}" ++ s) with (36%Z :: 123%Z :: 125%Z :: s) in *.
    rewrite (expand_dollar f env _ [] 2); [|discriminate|apply sn_empty]. cbn [skipn Nat.eqb app]. apply IH. cbn [length] in L. lia.
  - destruct f as [|f]; [cbn in L; lia|]. change (lit "${" ++ s) with (36%Z :: 123%Z :: s) in *.
    rewrite (expand_dollar f env _ [] 1); [|discriminate|constructor; assumption]. cbn [skipn Nat.eqb app]. apply IH. cbn [length] in L. lia.
  - destruct f as [|f]; [cbn in L; lia|]. change (lit "$" ++ s) with (36%Z :: s) in *. destruct s as [|c s].
    + inversion H; subst. reflexivity.
    + rewrite (expand_dollar f env _ [] 0); [|discriminate|constructor; intros ? ? E; injection E as <- <-].
      * cbn [skipn Nat.eqb]. f_equal. apply IH. cbn [length] in *. lia.
      * cbn in Hb. rewrite !not_true, alnum_iff, special_iff. tauto.
Qed.
Lemma total env : forall k s, length s <= k -> exists out, expands env s out.
Proof.
  induction k as [|k IH]; intros s L; [destruct s; [exists []; constructor|cbn in L; lia]|].
  destruct s as [|c s]; [exists []; constructor|]. cbn [length] in L. destruct (Z.eq_dec c 36) as [->|Hc].
  - destruct (shell_name_total s) as [n [w Hs]].
    assert (R : forall r, length r <= length s -> exists out, expands env r out) by (intros; apply IH; lia).
    destruct Hs as [n s Hn Hb|s|s H|c s H|n s Hn Hd F N|s H].
    + destruct (R s) as [out E]; [cbn; rewrite app_length; cbn; lia|]. eexists. exact (ex_braces env n s out Hn Hb E).
    + destruct (R s) as [out E]; [cbn; lia|]. eexists. exact (ex_empty env s out E).
    + destruct (R s) as [out E]; [cbn; lia|]. eexists. exact (ex_unclosed env s out H E).
    + destruct (R s) as [out E]; [cbn; lia|]. eexists. apply special_iff in H. exact (ex_one env c s out H E).
    + destruct (R s) as [out E]; [rewrite app_length; lia|]. eexists. refine (ex_name env n s out _ _ _ _ E).
      * destruct n as [|c n]; [congruence|]. inversion F; subst. cbn. apply alnum_iff; assumption.
      * destruct n as [|c n]; [congruence|]. cbn. rewrite <- special_iff. apply not_true. eapply Hd. reflexivity.
      * eapply Forall_impl; [|exact F]. intros; apply alnum_iff; assumption.
      * destruct s as [|c s]; cbn; [tauto|]. rewrite <- alnum_iff. apply not_true. eapply N; reflexivity.
    + destruct (R s) as [out E]; [lia|]. eexists. refine (ex_dollar env s out _ E). destruct s as [|c s]; cbn; [tauto|].
      destruct (H c s eq_refl) as [A [B C]]. rewrite <- alnum_iff, <- special_iff. rewrite A, B. intuition congruence.
  - destruct (IH s) as [out E]; [lia|]. eexists. apply ex_char; eassumption.
Qed.

(** The root every command uses is exactly the configured one with its variable references replaced. *)
Theorem C66_expansion env s out : expands env s out <-> ExpandEnv env s = out.
Proof.
  split; [intros H; unfold ExpandEnv; apply sound with (1 := H); lia|]. intros <-.
  destruct (total env (length s) s) as [out E]; [lia|]. unfold ExpandEnv. rewrite (sound env s out E) by lia. exact E.
Qed.
Theorem C66_root env groot out : expands (getenv env) groot out <-> root_of env groot = out.
Proof. apply C66_expansion. Qed.
(** Text without a dollar sign stays as it is, whatever the environment. *)
Theorem C66_plain env s : ~ In 36%Z s -> ExpandEnv env s = s.
Proof.
  intros H. apply C66_expansion. induction s as [|c s IH]; [constructor|]. constructor; [intros ->; apply H; left; reflexivity|apply IH; intros I; apply H; right; exact I].
Qed.
(** Values are inserted as they are: a reference inside a value is not expanded again. *)
Theorem C66_values_not_expanded_again env n s : begins name_char n -> ~ begins one_char_var n -> Forall name_char n -> ~ begins name_char s -> ~ In 36%Z s ->
  ExpandEnv env (lit "$" ++ n ++ s) = env n ++ s.
Proof.
  intros H1 H2 H3 H4 H5. apply C66_expansion. apply ex_name; try assumption. apply C66_expansion. apply C66_plain; exact H5.
Qed.
(** Only the variables named in the text matter. *)
Definition mentions (s n : str) : Prop := exists a b, s = a ++ n ++ b.
Theorem C66_depends_only_on_mentioned env env' s : (forall n, mentions s n -> env n = env' n) -> ExpandEnv env s = ExpandEnv env' s.
Proof.
  intros H. symmetry. apply C66_expansion. assert (E : expands env s (ExpandEnv env s)) by (apply C66_expansion; reflexivity).
  remember (ExpandEnv env s) as out eqn:D. clear D. assert (M : forall n a b, s = a ++ n ++ b -> env n = env' n) by (intros n a b Hn; apply H; exists a, b; exact Hn). clear H.
  induction E as [|c s out Hc _ IH|n s out Hb Hd F N H IH|c s out Hc H IH|n s out Hn Hb H IH|s out H IH|s out Hb H IH|s out Hb H IH].
  - constructor.
  - constructor; [exact Hc|]. apply IH. intros n a b ->. apply (M n (c :: a) b). reflexivity.
  - rewrite (M n (lit "$") s eq_refl). apply ex_name; try assumption. apply IH. intros m a b ->. apply (M m (lit "$" ++ n ++ a) b). rewrite <- !app_assoc. reflexivity.
  - rewrite (M [c] (lit "$") s eq_refl). apply ex_one; try assumption. apply IH. intros m a b ->. apply (M m (lit "$" ++ [c] ++ a) b). rewrite <- !app_assoc. reflexivity.
  - rewrite (M n (lit "${") (lit "}" ++ s) eq_refl). apply ex_braces; try assumption. apply IH. intros m a b ->. apply (M m (lit "${" ++ n ++ lit "}" ++ a) b). rewrite <- !app_assoc. reflexivity.
  - apply ex_empty. apply IH. intros m a b ->. apply (M m (lit "${}" ++ a) b). reflexivity.
  - apply ex_unclosed; [exact Hb|]. apply IH. intros m a b ->. apply (M m (lit "${" ++ a) b). reflexivity.
  - apply ex_dollar; [exact Hb|]. apply IH. intros m a b ->. apply (M m (lit "$" ++ a) b). reflexivity.
Qed.

(** Non-vacuity: a root with every kind of reference. *)
Definition env66 (n : str) : str := if str_dec n (lit "HOME") then lit "/h" else if str_dec n (lit "a z") then lit "$HOME" else if str_dec n (lit "1") then lit "one" else [].
Example C66_every_case : ExpandEnv env66 (lit "$HOME/x${a z}${}$1$$/$ $.${HOME}_$zz9/${b$") = lit "/h/x$HOMEone/$ $./h_/b$".
Proof. reflexivity. Qed.
Example C66_hyps : begins name_char (lit "HOME") /\ ~ begins one_char_var (lit "HOME") /\ Forall name_char (lit "HOME") /\ ~ begins name_char (lit "/x") /\ ~ In 36%Z (lit "/x").
Proof.
  unfold name_char, one_char_var. cbn. split; [lia|]. split; [intros [H|H]; [lia|intuition lia]|]. split; [repeat constructor; lia|]. split; [lia|].
  intros H. repeat (destruct H as [H|H]; [discriminate|]). exact H.
Qed.
Example C66_mentioned_hyp : forall n, mentions (lit "/vault") n -> env66 n = (fun n => if str_dec n (lit "PATH") then lit "x" else env66 n) n.
Proof.
  intros n [a [b E]]. cbv beta. destruct (str_dec n (lit "PATH")) as [->|]; [|reflexivity]. exfalso.
  assert (I : In 80%Z (lit "/vault")) by (rewrite E; apply in_or_app; right; left; reflexivity). cbn in I. intuition discriminate.
Qed.

Print Assumptions C66_expansion.
Print Assumptions C66_root.
Print Assumptions C66_plain.
Print Assumptions C66_values_not_expanded_again.
Print Assumptions C66_depends_only_on_mentioned.
