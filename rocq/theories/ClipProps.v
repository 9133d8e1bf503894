(** * C41 (Unix), C54 (macOS), C55 and C56 (Windows): the clipboard. *)
From Coq Require Import String.
From Coq Require Import ZArith NArith Arith List Bool Lia.
From Verif Require Import Utf8 GoStr ClipModel ClipSpec.
Import ListNotations.
Open Scope nat_scope.

(** ** C41 *)
(** Whatever is installed, after the package's init Write and Read fail without starting anything. *)
Theorem C41_unix_always_fails_refuted b text p out : WriteUnix (init b) text p = (None, false) /\ ReadUnix (init b) out = (None, None).
Proof.
  assert (U : Unsupported (init b) = true). { unfold init. repeat match goal with |- context [if ?c then _ else _] => destruct c end; reflexivity. }
  unfold WriteUnix, ReadUnix. rewrite U. auto.
Qed.
(** The detection itself is right: the command lines kept are those of the first usable tool. *)
Lemma usable_not b t p : In p (needs t) -> LookPath b p = false -> ~ usable b t.
Proof. intros I L [_ U]. rewrite (U p I) in L. discriminate. Qed.
Theorem C41_tool_choice b t : first_usable b t -> copyCmdArgs (init b) = copies t /\ pasteCmdArgs (init b) = pastes t /\ trimDos (init b) = crlf t.
Proof.
  intros [before [after [E [U N]]]].
  assert (W0 : usable b (nth 0 tools t) <-> negb (eqs (WAYLAND_DISPLAY b) []) && (LookPath b (lit "wl-copy") && LookPath b (lit "wl-paste")) = true).
  { rewrite !andb_true_iff, negb_true_iff. split.
    - intros [A B]. split; [|split; apply B; [left|right; left]; reflexivity]. unfold eqs. destruct (str_dec _ _) as [X|X]; [|reflexivity]. exfalso. exact (A eq_refl X).
    - intros [A [B C]]. split; [intros _ X; rewrite X in A; discriminate|]. intros p [<-|[<-|[]]]; assumption. }
  assert (W1 : usable b (nth 1 tools t) <-> LookPath b (lit "xclip") = true).
  { split; [intros [_ B]; apply B; left; reflexivity|]. intros A. split; [discriminate|]. intros p [<-|[]]. exact A. }
  assert (W2 : usable b (nth 2 tools t) <-> LookPath b (lit "xsel") = true).
  { split; [intros [_ B]; apply B; left; reflexivity|]. intros A. split; [discriminate|]. intros p [<-|[]]. exact A. }
  assert (W3 : usable b (nth 3 tools t) <-> LookPath b (lit "termux-clipboard-set") && LookPath b (lit "termux-clipboard-get") = true).
  { rewrite andb_true_iff. split; [intros [_ B]; split; apply B; [left|right; left]; reflexivity|]. intros [A C]. split; [discriminate|]. intros p [<-|[<-|[]]]; assumption. }
  unfold init. unfold tools in *. cbn [nth] in *.
  assert (Bool : forall (P : Prop) x, (P <-> x = true) -> ~ P -> x = false) by (intros P [] X Y; [exfalso; apply Y; apply X; reflexivity|reflexivity]).
  destruct before as [|t0 before]; [injection E as <- _; apply W0 in U; rewrite U; repeat split|]. injection E as <- E. rewrite (Bool _ _ W0) by (apply N; left; reflexivity).
  destruct before as [|t1 before]; [injection E as <- _; apply W1 in U; rewrite U; repeat split|]. injection E as <- E. rewrite (Bool _ _ W1) by (apply N; right; left; reflexivity).
  destruct before as [|t2 before]; [injection E as <- _; apply W2 in U; rewrite U; repeat split|]. injection E as <- E. rewrite (Bool _ _ W2) by (apply N; do 2 right; left; reflexivity).
  destruct before as [|t3 before]; [injection E as <- _; apply W3 in U; rewrite U; repeat split|]. injection E as <- E. rewrite (Bool _ _ W3) by (apply N; do 3 right; left; reflexivity).
  destruct before as [|t4 before]; [injection E as <- _; destruct (LookPath b (lit "clip.exe") && LookPath b (lit "powershell.exe")); repeat split|]. injection E as <- E. destruct before; discriminate.
Qed.
(** With Unsupported set to false by the program, Write succeeds exactly if the tool could be started, took all the text and ended
    without an error; only the tool's own command line is run, and it never gets anything but a prefix of the text. *)
Theorem C41_enabled_write c text p s ok : Unsupported c = false -> WriteUnix c text p = (s, ok) ->
  (ok = true -> s = Some (copy_command c, text) /\ p_wait p = true) /\ forall args sent, s = Some (args, sent) -> args = copy_command c /\ exists rest, text = sent ++ rest.
Proof.
  unfold WriteUnix, feed. intros ->. destruct (p_pipe p); [|intros E; injection E as <- <-; split; discriminate]. destruct (p_start p); [|intros E; injection E as <- <-; split; discriminate]. cbn [negb].
  destruct (p_write p) as [k|].
  - intros E. injection E as <- <-. split; [discriminate|]. intros args sent E. injection E as <- <-. split; [reflexivity|]. exists (skipn k text). symmetry. apply firstn_skipn.
  - destruct (p_close p); cbn [negb]; intros E; injection E as <- <-; (split; [try discriminate; auto|]); intros args sent E; injection E as <- <-; split; auto; exists []; symmetry; apply app_nil_r.
Qed.
Theorem C41_enabled_read c out : Unsupported c = false ->
  ReadUnix c out = (Some (paste_command c), match out (paste_command c) with None => None | Some r => Some (if trimDos c then (if length r <? 2 then r else firstn (length r - 2) r) else r) end).
Proof.
  unfold ReadUnix, output. intros ->. destruct (out (paste_command c)) as [r|]; [|reflexivity]. destruct (trimDos c); [|reflexivity]. cbn [andb].
  destruct (Nat.ltb_spec 1 (length r)), (Nat.ltb_spec (length r) 2); try lia; reflexivity.
Qed.
(** Which command line that is: the tool's own, or with Primary set the program's name alone, without its options. *)
Theorem C41_command_line c text p out args sent ok : Unsupported c = false -> WriteUnix c text p = (Some (args, sent), ok) ->
  (Primary c = false -> args = copyCmdArgs c /\ fst (ReadUnix c out) = Some (pasteCmdArgs c)) /\
  (Primary c = true -> forall w wopts r ropts, copyCmdArgs c = w :: wopts -> pasteCmdArgs c = r :: ropts -> args = [w] /\ fst (ReadUnix c out) = Some [r]).
Proof.
  intros U E. pose proof (C41_enabled_write c text p _ _ U E) as [_ H]. destruct (H _ _ eq_refl) as [-> _]. rewrite (C41_enabled_read c out U). cbn [fst]. unfold copy_command, paste_command. split.
  - intros ->. auto.
  - intros -> w wo r ro -> ->. auto.
Qed.
Definition xbox : Box := {| WAYLAND_DISPLAY := []; LookPath := fun p => eqs p (lit "xsel") |}.
Example ex_choice : first_usable xbox (nth 2 tools (nth 0 tools {| needs := []; copies := []; pastes := []; wayland_only := false; crlf := false |})).
Proof.
  exists (firstn 2 tools), (skipn 3 tools). split; [reflexivity|]. split.
  - split; [discriminate|]. intros p [<-|[]]. reflexivity.
  - intros t' [<-|[<-|[]]]; intros [A B]; [apply (A eq_refl); reflexivity|]. discriminate (B (lit "xclip") (or_introl eq_refl)).
Qed.
Example ex_write_enabled : let c := {| Unsupported := false; Primary := true; trimDos := false; pasteCmdArgs := xselPasteArgs; copyCmdArgs := xselCopyArgs |} in
  WriteUnix c (lit "pw") {| p_pipe := true; p_start := true; p_write := None; p_close := true; p_wait := true |} = (Some ([lit "xsel"], lit "pw"), true).
Proof. reflexivity. Qed.

(** ** C54: macOS *)
Theorem C54_mac_write text p s ok : WriteMac text p = (s, ok) ->
  (ok = true -> s = Some ([lit "pbcopy"], text) /\ p_wait p = true) /\ (p_pipe p = true -> p_start p = true -> p_write p = None -> p_close p = true -> s = Some ([lit "pbcopy"], text) /\ ok = p_wait p)
  /\ forall args sent, s = Some (args, sent) -> args = [lit "pbcopy"] /\ exists rest, text = sent ++ rest.
Proof.
  intros E. assert (W : WriteUnix {| Unsupported := false; Primary := false; trimDos := false; pasteCmdArgs := []; copyCmdArgs := [lit "pbcopy"] |} text p = (s, ok)) by exact E.
  apply C41_enabled_write in W; [|reflexivity]. destruct W as [W1 W2]. split; [exact W1|]. split; [|exact W2]. intros A B C D. unfold WriteMac, feed in E. rewrite A, B, C, D in E. injection E as <- <-. auto.
Qed.
Theorem C54_mac_read out : ReadMac out = out [lit "pbpaste"].
Proof. reflexivity. Qed.

(** ** C55: Windows *)
(** Inversion of runs of known programs. *)
Lemma inv_ret o evs o' : runs (Return o) evs o' -> evs = [] /\ o' = o.
Proof. intros H. inversion H; subst. auto. Qed.
Lemma inv_do c k evs o : runs (Do c k) evs o -> exists r e evs', evs = (c, r, e) :: evs' /\ runs (k r e) evs' o.
Proof. intros H. inversion H; subst. eauto 6. Qed.
Lemma inv_wait k evs o : runs (Wait k) evs o -> exists evs1 res evs', evs = evs1 ++ evs' /\ waits None evs1 res /\ runs (k res) evs' o.
Proof. intros H. inversion H; subst. eauto 8. Qed.
Lemma inv_peek l k evs o : runs (Peek l k) evs o -> exists mem evs', evs = (Look l mem, 0%Z, 0%Z) :: evs' /\ runs (k mem) evs' o.
Proof. intros H. inversion H; subst. eauto. Qed.
(** The waiting loop: only failed tries, then perhaps a successful one; nil is returned after a success or without any try. *)
Lemma waits_shape last evs res : waits last evs res ->
  (exists n, Forall (fun ev => exists e, ev = (OpenC, 0%Z, e)) n /\ ((exists r e, evs = n ++ [(OpenC, r, e)] /\ r <> 0%Z /\ res = None) \/ (evs = n /\ (n = [] -> res = last) /\ (n <> [] -> res <> None)))).
Proof.
  intros H. induction H as [last|last r e NZ|last e evs res H IH].
  - exists []. split; [constructor|]. right. split; [reflexivity|]. split; [reflexivity|]. intros X. contradiction.
  - exists []. split; [constructor|]. left. exists r, e. auto.
  - destruct IH as [n [F [[r [e' [-> [NZ ->]]]]|[-> [A B]]]]].
    + exists ((OpenC, 0%Z, e) :: n). split; [constructor; [eauto|exact F]|]. left. exists r, e'. auto.
    + exists ((OpenC, 0%Z, e) :: n). split; [constructor; [eauto|exact F]|]. right. split; [reflexivity|]. split; [discriminate|]. intros _. destruct n; [rewrite (A eq_refl); discriminate|apply B; discriminate].
Qed.
Lemma count_app p a b : count p (a ++ b) = count p a + count p b.
Proof. unfold count. rewrite filter_app, app_length. reflexivity. Qed.
Lemma failed_none p n : (forall e, p (OpenC, 0%Z, e) = false) -> Forall (fun ev => exists e, ev = (OpenC, 0%Z, e)) n -> count p n = 0.
Proof. intros H F. induction F as [|ev n [e ->] F IH]; [reflexivity|]. unfold count in *. cbn [filter]. rewrite H. exact IH. Qed.
Ltac invs := repeat match goal with
  | H : runs (Return _) _ _ |- _ => apply inv_ret in H; destruct H as [? ?]; subst
  | H : runs (close_then _) _ _ |- _ => unfold close_then in H
  | H : runs (close_free _ _) _ _ |- _ => unfold close_free in H
  | H : runs (Do ?c _) _ _ |- _ => apply inv_do in H; destruct H as [? [? [? [? H]]]]; cbv beta in H
  | H : runs (Peek _ _) _ _ |- _ => apply inv_peek in H; destruct H as [? [? [? H]]]; cbv beta zeta in H
  | H : runs (if ?c then _ else _) _ _ |- _ => let E := fresh "B" in destruct c eqn:E
  end; subst.
(** The part of write after a successful wait. *)
Definition after_open (text : str) : Prog := match WriteWin text with Wait k => k None | p => p end.
Definition read_after_open : Prog := match ReadWin with Do _ k => match k 1%Z 0%Z with Wait k' => k' None | p => p end | p => p end.
Lemma write_runs text evs o : runs (WriteWin text) evs o -> exists n, Forall (fun ev => exists e, ev = (OpenC, 0%Z, e)) n /\
  ((exists r e evs', evs = n ++ (OpenC, r, e) :: evs' /\ r <> 0%Z /\ runs (after_open text) evs' o)
   \/ (exists e, n <> [] /\ evs = n /\ o = Fail e) \/ (n = [] /\ runs (after_open text) evs o)).
Proof.
  intros H. apply inv_wait in H. destruct H as [evs1 [res [evs' [-> [W H]]]]]. apply waits_shape in W. destruct W as [n [F [[r [e [-> [NZ ->]]]]|[-> [A B]]]]]; exists n; (split; [exact F|]).
  - left. exists r, e, evs'. rewrite <- app_assoc. auto.
  - destruct n as [|x n]; [rewrite (A eq_refl) in H; right; right; auto|]. right. left. destruct res as [e|]; [|exfalso; apply (B ltac:(discriminate)); reflexivity].
    apply inv_ret in H. destruct H as [-> ->]. exists e. split; [discriminate|]. split; [apply app_nil_r|reflexivity].
Qed.
Lemma read_runs evs o : runs ReadWin evs o -> exists f e0 evs0, evs = (IsAvailable, f, e0) :: evs0 /\ ((f = 0%Z /\ evs0 = [] /\ o = Fail e0) \/ exists n, Forall (fun ev => exists e, ev = (OpenC, 0%Z, e)) n /\
  ((exists r e evs', evs0 = n ++ (OpenC, r, e) :: evs' /\ r <> 0%Z /\ runs read_after_open evs' o)
   \/ (exists e, n <> [] /\ evs0 = n /\ o = Fail e) \/ (n = [] /\ runs read_after_open evs0 o))).
Proof.
  intros H. apply inv_do in H. destruct H as [f [e0 [evs0 [-> H]]]]. exists f, e0, evs0. split; [reflexivity|]. cbv beta in H. destruct (Z.eqb_spec f 0) as [->|NF]; [apply inv_ret in H; destruct H; left; auto|right].
  apply inv_wait in H. destruct H as [evs1 [res [evs' [-> [W H]]]]]. apply waits_shape in W. destruct W as [n [F [[r [e [-> [NZ ->]]]]|[-> [A B]]]]]; exists n; (split; [exact F|]).
  - left. exists r, e, evs'. rewrite <- app_assoc. auto.
  - destruct n as [|x n]; [rewrite (A eq_refl) in H; right; right; auto|]. right. left. destruct res as [e|]; [|exfalso; apply (B ltac:(discriminate)); reflexivity].
    apply inv_ret in H. destruct H as [-> ->]. exists e. split; [discriminate|]. split; [apply app_nil_r|reflexivity].
Qed.
Lemma after_open_close text evs o : runs (after_open text) evs o -> o <> PanicW ->
  exists mid r e post, evs = mid ++ (CloseC, r, e) :: post /\ Forall (fun ev => is_open ev = false /\ is_close ev = false) mid /\ Forall (fun ev => exists h r e, ev = (FreeM h, r, e)) post.
Proof.
  unfold after_open, WriteWin. intros H NP. apply inv_do in H. destruct H as [r [e [evs' [-> H]]]]. cbv beta in H. destruct (StringToUTF16 text) as [data|].
  - invs. all: match goal with |- exists mid r e post, ?l = _ /\ _ => idtac end.
    all: let rec go pre l := lazymatch l with (CloseC, ?r, ?e) :: ?post => exists (rev pre), r, e, post | ?x :: ?t => go (x :: pre) t end in match goal with |- exists mid r e post, ?l = _ /\ _ => go (@nil Event) l end; split; [reflexivity|]; split; cbn [rev app]; repeat constructor; eauto.
  - invs; [|contradiction]. exists [(EmptyC, r, e)]; do 3 eexists; split; [reflexivity|]; split; repeat constructor.
Qed.
Lemma read_after_close evs o : runs read_after_open evs o ->
  exists mid r e, evs = mid ++ [(CloseC, r, e)] /\ Forall (fun ev => is_open ev = false /\ is_close ev = false) mid.
Proof.
  unfold read_after_open, ReadWin. cbn [Z.eqb]. intros H. invs.
  all: let rec go pre l := lazymatch l with (CloseC, ?r, ?e) :: ?post => exists (rev pre), r, e | ?x :: ?t => go (x :: pre) t end in match goal with |- exists mid r e, ?l = _ /\ _ => go (@nil Event) l end; split; [reflexivity|]; cbn [rev app]; repeat constructor; eauto.
Qed.
(** Read and Write, if they tried to open the clipboard at all, close it exactly if they opened it, once; between opening and closing
    it they neither open nor close it, and afterwards only free memory. *)
Definition closed_properly (evs : list Event) : Prop :=
  (count is_open_ok evs = 0 /\ count is_close evs = 0) \/
  exists pre r e mid r' e' post, evs = pre ++ (OpenC, r, e) :: mid ++ (CloseC, r', e') :: post /\ r <> 0%Z
    /\ count is_open_ok pre = 0 /\ count is_close pre = 0 /\ Forall (fun ev => is_open ev = false /\ is_close ev = false) mid /\ Forall (fun ev => exists h r e, ev = (FreeM h, r, e)) post.
Theorem C55_write_closes text evs o : runs (WriteWin text) evs o -> (exists ev, In ev evs /\ is_open ev = true) -> o <> PanicW -> closed_properly evs.
Proof.
  intros H T NP. apply write_runs in H. destruct H as [n [F [[r [e [evs' [-> [NZ H]]]]]|[[e [N0 [-> ->]]]|[-> H]]]]].
  - right. destruct (after_open_close _ _ _ H NP) as [mid [r' [e' [post [-> [M P]]]]]]. exists n, r, e, mid, r', e', post. split; [reflexivity|]. split; [exact NZ|]. split; [apply failed_none; [reflexivity|exact F]|]. split; [apply failed_none; [reflexivity|exact F]|]. auto.
  - left. split; apply failed_none; auto.
  - exfalso. destruct (after_open_close _ _ _ H NP) as [mid [r' [e' [post [-> [M P]]]]]]. destruct T as [ev [I O]]. apply in_app_or in I. destruct I as [I|[<-|I]]; [|discriminate|].
    + rewrite Forall_forall in M. apply M in I. destruct I as [X _]. congruence.
    + rewrite Forall_forall in P. apply P in I. destruct I as [h [a [b ->]]]. discriminate.
Qed.
Theorem C55_read_closes evs o : runs ReadWin evs o -> (exists ev, In ev evs /\ is_open ev = true) -> closed_properly evs.
Proof.
  intros H T. apply read_runs in H. destruct H as [f [e0 [evs0 [-> [[-> [-> ->]]|[n [F H]]]]]]]; [|destruct H as [[r [e [evs' [-> [NZ H]]]]]|[[e [N0 [-> ->]]]|[-> H]]]].
  - left. split; reflexivity.
  - right. destruct (read_after_close _ _ H) as [mid [r' [e' [-> M]]]]. exists ((IsAvailable, f, e0) :: n), r, e, mid, r', e', []. split; [reflexivity|]. split; [exact NZ|].
    split; [apply (failed_none is_open_ok n); [reflexivity|exact F]|]. split; [apply (failed_none is_close n); [reflexivity|exact F]|]. auto.
  - left. split; [apply (failed_none is_open_ok n)|apply (failed_none is_close n)]; auto.
  - exfalso. destruct (read_after_close _ _ H) as [mid [r' [e' [-> M]]]]. destruct T as [ev [[<-|I] O]]; [discriminate|]. apply in_app_or in I. destruct I as [I|[<-|[]]]; [|discriminate].
    rewrite Forall_forall in M. apply M in I. destruct I as [X _]. congruence.
Qed.
(** Every block allocated by Write is either freed, once, or given to the clipboard, never both. *)
Theorem C55_memory text evs o n h e : runs (WriteWin text) evs o -> In (Alloc n, h, e) evs -> h <> 0%Z -> count (frees h) evs + count (gives h) evs = 1.
Proof.
  intros H I NZ. apply write_runs in H. destruct H as [m [F H]].
  assert (K : forall evs', runs (after_open text) evs' o -> In (Alloc n, h, e) evs' -> count (frees h) evs' + count (gives h) evs' = 1).
  { clear - NZ. intros evs H I. unfold after_open, WriteWin in H. apply inv_do in H. destruct H as [r [e' [evs' [-> H]]]]. destruct I as [I|I]; [discriminate|]. cbv beta in H. destruct (r =? 0)%Z eqn:B0.
    { invs. destruct I as [I|[]]; discriminate. }
    destruct (StringToUTF16 text) as [data|]; [|invs; destruct I].
    apply inv_do in H. destruct H as [h' [e2 [evs2 [-> H]]]]. cbv beta in H.
    assert (E : h' = h).
    { destruct I as [I|I]; [congruence|]. exfalso. invs; cbn [In] in I; repeat destruct I as [I|I]; try discriminate; try contradiction. }
    subst h'. clear I. destruct (Z.eqb_spec h 0) as [|_]; [contradiction|]. invs; unfold count; cbn [filter length frees gives]; rewrite ?Z.eqb_refl; cbn [andb negb]; repeat match goal with B : (_ =? 0)%Z = _ |- _ => rewrite ?B; clear B end; cbn [negb filter length]; reflexivity. }
  assert (Z0 : forall l, count (frees h) (m ++ l) + count (gives h) (m ++ l) = count (frees h) l + count (gives h) l).
  { intros l. rewrite !count_app, (failed_none (frees h) m), (failed_none (gives h) m); auto. }
  assert (Im : ~ In (Alloc n, h, e) m). { intros J. rewrite Forall_forall in F. apply F in J. destruct J as [x J]. discriminate. }
  destruct H as [[r [e1 [evs' [-> [_ H]]]]]|[[e1 [_ [-> _]]]|[-> H]]]; [|contradiction|exact (K _ H I)].
  rewrite Z0. apply in_app_or in I. destruct I as [I|[I|I]]; [contradiction|discriminate|]. exact (K _ H I).
Qed.
(** If Write returns nil, the text, as zero-terminated UTF-16, was copied to a block that was given to the clipboard, and the clipboard closed. *)
Theorem C55_write_success text evs : runs (WriteWin text) evs OkNil -> exists data, StringToUTF16 text = Some data /\ handed_over evs data.
Proof.
  intros H. apply write_runs in H. destruct H as [m [F H]].
  assert (K : forall pre evs', evs = pre ++ evs' -> runs (after_open text) evs' OkNil -> exists data, StringToUTF16 text = Some data /\ handed_over evs data).
  { clear. intros pre evs' -> H. unfold after_open, WriteWin in H. apply inv_do in H. destruct H as [r [e' [evs2 [-> H]]]]. cbv beta in H. destruct (r =? 0)%Z; [invs; discriminate|].
    destruct (StringToUTF16 text) as [data|]; [|invs; discriminate]. exists data. split; [reflexivity|]. invs; try discriminate.
    all: match goal with |- handed_over (?pre ++ ?x :: (Alloc _, ?h, ?e0) :: (Lock ?h, ?l, ?e1) :: (Strcpy ?l ?data, ?r2, ?e2) :: ?z :: (SetData ?h, ?r3, ?e3) :: (CloseC, ?r4, ?e4) :: []) ?data =>
      exists h, l, (pre ++ [x]), e0, [], e1, [], r2, e2, [z], r3, e3, [], r4, e4 end.
    all: (split; [rewrite <- app_assoc, (Nat.mul_comm 2); reflexivity|]); repeat split; apply Z.eqb_neq; assumption. }
  destruct H as [[r [e1 [evs' [-> [_ H]]]]]|[[e1 [_ [_ H]]]|[-> H]]]; [|discriminate|exact (K [] evs eq_refl H)].
  apply (K (m ++ [(OpenC, r, e1)]) evs'); [rewrite <- app_assoc; reflexivity|exact H].
Qed.
(** And when every call succeeds, Write returns nil: such a run exists for every text without NUL. *)
Theorem C55_write_possible text : ~ In 0%Z text -> exists evs, runs (WriteWin text) evs OkNil.
Proof.
  intros N. eexists. unfold WriteWin. eapply r_wait; [apply w_open with (r := 1%Z) (e := 0%Z); discriminate|]. apply (r_do EmptyC _ 1%Z 0%Z). cbv beta. cbn [Z.eqb].
  unfold StringToUTF16. destruct (existsb (Z.eqb 0) text) eqn:X; [apply existsb_exists in X; destruct X as [z [I E]]; apply Z.eqb_eq in E; subst; contradiction|].
  apply (r_do _ _ 1%Z 0%Z); cbv beta; cbn [Z.eqb]. apply (r_do _ _ 1%Z 0%Z); cbv beta; cbn [Z.eqb]. apply (r_do _ _ 1%Z 0%Z); cbv beta; cbn [Z.eqb]. apply (r_do _ _ 1%Z 0%Z); cbv beta; cbn [Z.eqb andb negb]. apply (r_do _ _ 1%Z 0%Z); cbv beta; cbn [Z.eqb]. apply (r_do _ _ 1%Z 0%Z); cbv beta; cbn [Z.eqb]. constructor.
Qed.
(** A text with NUL crashes Write whenever the clipboard could be opened and emptied, and leaves it open and empty. *)
Theorem C55_nul_leaves_open_refuted text : In 0%Z text -> exists evs, runs (WriteWin text) evs PanicW /\ count is_open_ok evs = 1 /\ count is_close evs = 0 /\ In (EmptyC, 1%Z, 0%Z) evs.
Proof.
  intros I. exists [(OpenC, 1%Z, 0%Z); (EmptyC, 1%Z, 0%Z)]. split; [|repeat split; right; left; reflexivity].
  apply (r_wait _ [(OpenC, 1%Z, 0%Z)] None [(EmptyC, 1%Z, 0%Z)]); [apply w_open; discriminate|]. apply (r_do EmptyC _ 1%Z 0%Z). cbv beta. cbn [Z.eqb]. unfold StringToUTF16.
  assert (X : existsb (Z.eqb 0) text = true) by (apply existsb_exists; exists 0%Z; auto). rewrite X. constructor.
Qed.
(** If the process is held up for a second before the first try, Write and Read go on without having opened the clipboard. *)
Theorem C55_not_opened_refuted text : ~ In 0%Z text -> (exists evs, runs (WriteWin text) evs OkNil /\ count is_open evs = 0 /\ count is_close evs = 1) /\ exists evs s, runs ReadWin evs (OkText s) /\ count is_open evs = 0 /\ count is_close evs = 1.
Proof.
  intros N. split.
  - assert (X : exists evs, runs (after_open text) evs OkNil /\ count is_open evs = 0 /\ count is_close evs = 1).
    { unfold after_open, WriteWin, StringToUTF16. destruct (existsb (Z.eqb 0) text) eqn:X; [apply existsb_exists in X; destruct X as [z [I E]]; apply Z.eqb_eq in E; subst; contradiction|].
      eexists. split; [|split]; [apply (r_do EmptyC _ 1%Z 0%Z); cbv beta; cbn [Z.eqb]; apply (r_do _ _ 1%Z 0%Z); cbv beta; cbn [Z.eqb]; apply (r_do _ _ 1%Z 0%Z); cbv beta; cbn [Z.eqb]; apply (r_do _ _ 1%Z 0%Z); cbv beta; cbn [Z.eqb]; apply (r_do _ _ 1%Z 0%Z); cbv beta; cbn [Z.eqb andb negb]; apply (r_do _ _ 1%Z 0%Z); cbv beta; cbn [Z.eqb]; apply (r_do _ _ 1%Z 0%Z); cbv beta; cbn [Z.eqb]; constructor| |]; reflexivity. }
    destruct X as [evs [R [A B]]]. exists evs. split; [|auto]. change evs with ([] ++ evs). unfold WriteWin. eapply r_wait; [apply w_late|exact R].
  - eexists. exists (UTF16ToString (firstn window [])). split; [|split]; [unfold ReadWin; apply (r_do _ _ 1%Z 0%Z); cbv beta; cbn [Z.eqb]; change (?x :: ?y) with ([] ++ x :: y); eapply (r_wait _ []); [apply w_late|]; apply (r_do _ _ 1%Z 0%Z); cbv beta; cbn [Z.eqb]; apply (r_do _ _ 1%Z 0%Z); cbv beta; cbn [Z.eqb]; apply (r_peek _ _ []); cbv beta zeta; apply (r_do _ _ 1%Z 0%Z); cbv beta; cbn [Z.eqb]; apply (r_do _ _ 1%Z 0%Z); cbv beta; cbn [Z.eqb]; constructor| |]; reflexivity.
Qed.

(** ** C56: what was written is read back *)
Lemma utf16_decode_rune r u : valid_rune r -> utf16_decode (utf16_rune r ++ u) = r :: utf16_decode u.
Proof.
  intros [R S]. unfold utf16_rune. unfold surrogate, in_range in S. destruct (Z.leb_spec 65536 r).
  - pose proof (Z.div_mod (r - 65536) 1024 ltac:(lia)). pose proof (Z.mod_pos_bound (r - 65536) 1024 ltac:(lia)). assert (0 <= (r - 65536) / 1024 < 1024)%Z by (split; [apply Z.div_pos; lia|apply Z.div_lt_upper_bound; lia]).
    set (a := ((r - 65536) / 1024)%Z) in *. set (b := ((r - 65536) mod 1024)%Z) in *. cbn [app utf16_decode].
    destruct (Z.leb_spec 55296 (55296 + a)); [|lia]. destruct (Z.ltb_spec (55296 + a) 56320); [|lia]. destruct (Z.leb_spec 56320 (56320 + b)); [|lia]. destruct (Z.ltb_spec (56320 + b) 57344); [|lia]. cbn [andb]. f_equal. lia.
  - cbn [app utf16_decode]. apply andb_false_iff in S. rewrite !Z.leb_gt in S. destruct (Z.leb_spec 55296 r), (Z.ltb_spec r 56320), (Z.leb_spec 56320 r), (Z.ltb_spec r 57344); cbn [andb]; try lia; reflexivity.
Qed.
Lemma utf16_decode_all rs : Forall valid_rune rs -> utf16_decode (utf16 rs) = rs.
Proof. intros F. induction F as [|r rs V F IH]; [reflexivity|]. unfold utf16 in *. cbn [map concat]. rewrite utf16_decode_rune by exact V. rewrite IH. reflexivity. Qed.
Lemma utf16_no_zero rs : Forall valid_rune rs -> ~ In 0%Z rs -> ~ In 0%Z (utf16 rs).
Proof.
  intros F N I. unfold utf16 in I. apply in_concat in I. destruct I as [l [I1 I2]]. apply in_map_iff in I1. destruct I1 as [r [<- I1]]. unfold utf16_rune in I2. destruct (Z.leb_spec 65536 r).
  - assert (0 <= (r - 65536) / 1024)%Z by (apply Z.div_pos; lia). pose proof (Z.mod_pos_bound (r - 65536) 1024 ltac:(lia)). destruct I2 as [I2|[I2|[]]]; lia.
  - destruct I2 as [->|[]]. contradiction.
Qed.
Lemma until_zero_app u v : ~ In 0%Z u -> until_zero (u ++ 0%Z :: v) = u /\ until_zero u = u.
Proof.
  induction u as [|x u IH]; intros N; [auto|]. cbn [app until_zero]. destruct (Z.eqb_spec x 0) as [->|]; [exfalso; apply N; left; reflexivity|]. destruct IH as [A B]; [intros I; apply N; right; exact I|]. rewrite A, B. auto.
Qed.
Lemma zero_utf8 rs : Forall valid_rune rs -> ~ In 0%Z (utf8 rs) -> ~ In 0%Z rs.
Proof. intros F N I. apply N. unfold utf8. apply in_concat. exists [0%Z]. split; [|left; reflexivity]. apply in_map_iff. exists 0%Z. split; [reflexivity|exact I]. Qed.
Lemma until_zero_firstn n u v : ~ In 0%Z u -> length u <= n -> until_zero (firstn n (u ++ 0%Z :: v)) = u.
Proof.
  intros N L. rewrite firstn_app. rewrite firstn_all2 by exact L. destruct (n - length u) as [|k]; cbn [firstn]; [rewrite app_nil_r; apply (until_zero_app u [] N)|apply until_zero_app; exact N].
Qed.
Lemma convert rs junk data : Forall valid_rune rs -> ~ In 0%Z (utf8 rs) -> length (utf16 rs) <= window -> StringToUTF16 (utf8 rs) = Some data -> UTF16ToString (firstn window (data ++ junk)) = utf8 rs.
Proof.
  intros F N L E. unfold StringToUTF16 in E. destruct (existsb (Z.eqb 0) (utf8 rs)) eqn:X; [discriminate|]. injection E as <-. rewrite runes_utf8 by exact F. rewrite <- app_assoc. cbn [app]. unfold UTF16ToString.
  rewrite until_zero_firstn; [|apply utf16_no_zero; [exact F|apply zero_utf8; assumption]|exact L]. rewrite utf16_decode_all by exact F. reflexivity.
Qed.
Lemma read_window evs t l mem r e : runs ReadWin evs (OkText t) -> In (Look l mem, r, e) evs -> t = UTF16ToString (firstn window mem).
Proof.
  intros R I2. apply read_runs in R. destruct R as [f [e0 [evs0 [-> H]]]]. destruct I2 as [I2|I2]; [discriminate|]. destruct H as [[_ [-> _]]|[n [F H]]]; [destruct I2|].
    assert (K : forall evs', runs read_after_open evs' (OkText t) -> In (Look l mem, r, e) evs' -> t = UTF16ToString (firstn window mem)).
    { clear. unfold read_after_open, ReadWin. cbn [Z.eqb]. set (W := window). clearbody W. intros evs H I. invs; try discriminate. cbn [In] in I. repeat destruct I as [I|I]; try discriminate; try contradiction. injection I as _ -> _ _. congruence. }
    assert (Im : ~ In (Look l mem, r, e) n). { intros J. rewrite Forall_forall in F. apply F in J. destruct J as [x J]. discriminate. }
    destruct H as [[r0 [e1 [evs' [-> [_ H]]]]]|[[e1 [_ [-> _]]]|[-> H]]]; [|contradiction|exact (K _ H I2)]. apply in_app_or in I2. destruct I2 as [I|[I|I]]; [contradiction|discriminate|]. exact (K _ H I).
Qed.
Lemma window_spec n : (N.of_nat n <= 2 ^ 20)%N <-> n <= window.
Proof. unfold window. change 1048576%N with (2 ^ 20)%N. split; intros H; lia. Qed.
(** If a read finds in memory what a successful write of a valid UTF-8 text put there (followed by anything), and the text has at most
    2^20 UTF-16 units, then it returns the text. *)
Theorem C56_round_trip rs evs1 evs2 t l l' data junk r e r' e' : Forall valid_rune rs -> (N.of_nat (length (utf16 rs)) <= 2 ^ 20)%N ->
  runs (WriteWin (utf8 rs)) evs1 OkNil -> In (Strcpy l data, r, e) evs1 -> runs ReadWin evs2 (OkText t) -> In (Look l' (data ++ junk), r', e') evs2 -> t = utf8 rs.
Proof.
  intros F L W I1 R I2.
  assert (D : StringToUTF16 (utf8 rs) = Some data).
  { clear - W I1. apply write_runs in W. destruct W as [m [F H]].
    assert (K : forall evs', runs (after_open (utf8 rs)) evs' OkNil -> In (Strcpy l data, r, e) evs' -> StringToUTF16 (utf8 rs) = Some data).
    { clear. intros evs H I. unfold after_open, WriteWin in H. apply inv_do in H. destruct H as [r0 [e' [evs' [-> H]]]]. destruct I as [I|I]; [discriminate|]. cbv beta in H. destruct (r0 =? 0)%Z eqn:B0; [invs; discriminate|].
      destruct (StringToUTF16 (utf8 rs)) as [d|]; [|invs; discriminate]. invs; try discriminate; cbn [In] in I; repeat destruct I as [I|I]; try discriminate; try contradiction; injection I as _ -> _ _; reflexivity. }
    assert (Im : ~ In (Strcpy l data, r, e) m). { intros J. rewrite Forall_forall in F. apply F in J. destruct J as [x J]. discriminate. }
    destruct H as [[r0 [e1 [evs' [-> [_ H]]]]]|[[e1 [_ [-> _]]]|[-> H]]]; [|contradiction|exact (K _ H I1)]. apply in_app_or in I1. destruct I1 as [I|[I|I]]; [contradiction|discriminate|]. exact (K _ H I). }
  pose proof (read_window _ _ _ _ _ _ R I2) as T. apply window_spec in L.
  rewrite T. apply convert; auto. intros Z0. unfold StringToUTF16 in D. assert (X : existsb (Z.eqb 0) (utf8 rs) = true) by (apply existsb_exists; exists 0%Z; auto). rewrite X in D. discriminate.
Qed.
Lemma cut_differs W rs data junk : Forall valid_rune rs -> W < length (utf16 rs) -> StringToUTF16 (utf8 rs) = Some data -> UTF16ToString (firstn W (data ++ junk)) <> utf8 rs.
Proof.
  intros F L E X. unfold StringToUTF16 in E. destruct (existsb (Z.eqb 0) (utf8 rs)) eqn:Z0; [discriminate|]. injection E as <-. rewrite runes_utf8 in X by exact F.
  rewrite <- app_assoc, firstn_app in X. replace (W - length (utf16 rs)) with 0 in X by lia. cbn [firstn] in X. rewrite app_nil_r in X.
  assert (NZ : ~ In 0%Z (utf16 rs)). { apply utf16_no_zero; [exact F|]. apply zero_utf8; [exact F|]. intros I. assert (Y : existsb (Z.eqb 0) (utf8 rs) = true) by (apply existsb_exists; exists 0%Z; auto). congruence. }
  assert (NF : ~ In 0%Z (firstn W (utf16 rs))). { intros I. apply NZ. rewrite <- (firstn_skipn W (utf16 rs)). apply in_or_app. left. exact I. }
  unfold UTF16ToString in X. rewrite (proj2 (until_zero_app _ [] NF)) in X.
  assert (LD : forall u, Forall (fun x => 0 <= x < 65536)%Z u -> Forall valid_rune (utf16_decode u) /\ length (utf16 (utf16_decode u)) <= length u).
  { assert (V3 : valid_rune RuneError) by (split; [unfold RuneError; lia|reflexivity]).
    induction u as [u IH] using (induction_ltof1 _ (@length Z)). unfold ltof in IH. intros Fu. destruct u as [|a u]; [split; [constructor|cbn; lia]|]. inversion Fu as [|? ? Ha Fu']; subst. cbn [utf16_decode]. unfold utf16 in *.
    destruct ((55296 <=? a) && (a <? 56320))%Z eqn:B1.
    - apply andb_true_iff in B1. rewrite Z.leb_le, Z.ltb_lt in B1. destruct u as [|b u]; [split; [repeat constructor; apply V3|cbn; lia]|]. inversion Fu' as [|? ? Hb Fu2]; subst. destruct ((56320 <=? b) && (b <? 57344))%Z eqn:B2.
      + apply andb_true_iff in B2. rewrite Z.leb_le, Z.ltb_lt in B2. destruct (IH u ltac:(cbn; lia) Fu2) as [A B]. split.
        * constructor; [|exact A]. split; [lia|]. unfold surrogate, in_range. destruct (Z.leb_spec ((a - 55296) * 1024 + (b - 56320) + 65536) 57343); [lia|]. apply andb_false_r.
        * cbn [map concat]. rewrite app_length. unfold utf16_rune at 1. destruct (Z.leb_spec 65536 ((a - 55296) * 1024 + (b - 56320) + 65536)); cbn [length]; lia.
      + destruct (IH (b :: u) ltac:(cbn; lia) Fu') as [A B]. split; [constructor; [apply V3|exact A]|]. cbn [map concat]. rewrite app_length. change (length (utf16_rune RuneError)) with 1. cbn [length] in *. lia.
    - destruct ((56320 <=? a) && (a <? 57344))%Z eqn:B2.
      + destruct (IH u ltac:(cbn; lia) Fu') as [A B]. split; [constructor; [apply V3|exact A]|]. cbn [map concat]. rewrite app_length. change (length (utf16_rune RuneError)) with 1. cbn [length] in *. lia.
      + destruct (IH u ltac:(cbn; lia) Fu') as [A B]. split.
        * constructor; [|exact A]. split; [lia|]. unfold surrogate, in_range. apply andb_false_iff in B1, B2. rewrite Z.leb_gt, Z.ltb_ge in B1, B2. apply andb_false_iff. rewrite !Z.leb_gt. lia.
        * cbn [map concat]. rewrite app_length. unfold utf16_rune at 1. destruct (Z.leb_spec 65536 a); [lia|]. cbn [length] in *. lia. }
  destruct (LD (firstn W (utf16 rs))) as [V Le].
  { apply Forall_forall. intros x I. assert (J : In x (utf16 rs)) by (rewrite <- (firstn_skipn W (utf16 rs)); apply in_or_app; left; exact I). unfold utf16 in J. apply in_concat in J. destruct J as [l [J1 J2]]. apply in_map_iff in J1. destruct J1 as [r [<- J1]].
    rewrite Forall_forall in F. apply F in J1. destruct J1 as [R _]. unfold utf16_rune in J2. destruct (Z.leb_spec 65536 r).
    - pose proof (Z.mod_pos_bound (r - 65536) 1024 ltac:(lia)). assert (0 <= (r - 65536) / 1024 < 1024)%Z by (split; [apply Z.div_pos; lia|apply Z.div_lt_upper_bound; lia]). destruct J2 as [<-|[<-|[]]]; lia.
    - destruct J2 as [<-|[]]. lia. }
  assert (Y : utf16_decode (firstn W (utf16 rs)) = rs) by (rewrite <- (runes_utf8 _ V), X; apply runes_utf8; exact F). rewrite Y in Le. pose proof (firstn_le_length W (utf16 rs)). lia.
Qed.
(** A longer text is never read back unchanged. *)
Theorem C56_long_refuted rs evs t l data junk r e : Forall valid_rune rs -> (2 ^ 20 < N.of_nat (length (utf16 rs)))%N -> StringToUTF16 (utf8 rs) = Some data ->
  runs ReadWin evs (OkText t) -> In (Look l (data ++ junk), r, e) evs -> t <> utf8 rs.
Proof.
  intros F L D R I. rewrite (read_window _ _ _ _ _ _ R I). apply cut_differs; auto. destruct (Nat.le_gt_cases (length (utf16 rs)) window) as [X|X]; [|exact X]. apply window_spec in X. lia.
Qed.
(** Bytes that are not UTF-8 come back as U+FFFD. *)
Theorem C56_invalid_refuted : exists data, StringToUTF16 [255%Z] = Some data /\ UTF16ToString (firstn 10 data) = [239; 191; 189]%Z.
Proof. exists [65533; 0]%Z. split; vm_compute; reflexivity. Qed.
Example ex_round_trip : exists data, StringToUTF16 (utf8 [112; 8364; 128512]%Z) = Some data /\ data = [112; 8364; 55357; 56832; 0]%Z /\ UTF16ToString data = utf8 [112; 8364; 128512]%Z.
Proof. exists [112; 8364; 55357; 56832; 0]%Z. split; [vm_compute; reflexivity|]. split; vm_compute; reflexivity. Qed.

Print Assumptions C41_unix_always_fails_refuted.
Print Assumptions C41_tool_choice.
Print Assumptions C41_enabled_write.
Print Assumptions C41_enabled_read.
Print Assumptions C41_command_line.
Print Assumptions C54_mac_write.
Print Assumptions C54_mac_read.
Print Assumptions C55_write_closes.
Print Assumptions C55_read_closes.
Print Assumptions C55_memory.
Print Assumptions C55_write_success.
Print Assumptions C55_write_possible.
Print Assumptions C55_nul_leaves_open_refuted.
Print Assumptions C55_not_opened_refuted.
Print Assumptions C56_round_trip.
Print Assumptions C56_long_refuted.
Print Assumptions C56_invalid_refuted.
(** The hypotheses of C56_round_trip can be met: Read succeeds on any memory contents when every call does. *)
Theorem C55_read_possible mem : exists evs t, runs ReadWin evs (OkText t) /\ In (Look 1 mem, 0%Z, 0%Z) evs.
Proof.
  exists ((IsAvailable, 1, 0) :: [(OpenC, 1, 0)] ++ [(GetData, 1, 0); (Lock 1, 1, 0); (Look 1 mem, 0, 0); (Unlock 1, 1, 0); (CloseC, 1, 0)])%Z, (UTF16ToString (firstn window mem)). split; [|do 4 right; left; reflexivity].
  unfold ReadWin. apply (r_do _ _ 1%Z 0%Z); cbv beta; cbn [Z.eqb]. eapply r_wait; [apply w_open; discriminate|]. cbv beta iota. apply (r_do _ _ 1%Z 0%Z); cbv beta; cbn [Z.eqb]. apply (r_do _ _ 1%Z 0%Z); cbv beta; cbn [Z.eqb]. apply (r_peek _ _ mem); cbv beta zeta. apply (r_do _ _ 1%Z 0%Z); cbv beta; cbn [Z.eqb]. apply (r_do _ _ 1%Z 0%Z); cbv beta; cbn [Z.eqb]. constructor.
Qed.
Print Assumptions C55_read_possible.
(** GlobalUnlock returns 0 with error number 0 when the last lock is released: Write accepts that, so a run in which every call
    succeeds hands the text over; Read takes it for a failure, although nothing has failed. *)
Theorem C55_write_accepts_last_unlock text data h l : StringToUTF16 text = Some data -> h <> 0%Z -> l <> 0%Z ->
  runs (WriteWin text) ([(OpenC, 1, 0)] ++ [(EmptyC, 1, 0); (Alloc (length data * 2), h, 0); (Lock h, l, 0); (Strcpy l data, l, 0); (Unlock h, 0, 0); (SetData h, h, 0); (CloseC, 1, 0)])%Z OkNil.
Proof.
  intros D Nh Nl. apply Z.eqb_neq in Nh, Nl. unfold WriteWin. eapply r_wait; [apply w_open; discriminate|]. cbv beta iota. rewrite D.
  apply (r_do EmptyC _ 1%Z 0%Z); cbv beta; cbn [Z.eqb]. apply (r_do _ _ h 0%Z); cbv beta; rewrite Nh. apply (r_do _ _ l 0%Z); cbv beta; rewrite Nl. apply (r_do _ _ l 0%Z); cbv beta; rewrite Nl.
  apply (r_do _ _ 0%Z 0%Z); cbv beta; cbn [Z.eqb andb negb]. apply (r_do _ _ h 0%Z); cbv beta; rewrite Nh. apply (r_do _ _ 1%Z 0%Z); cbv beta; cbn [Z.eqb]. constructor.
Qed.
Lemma waits_open last evs res : waits last evs res -> forall c r e, In (c, r, e) evs -> c = OpenC.
Proof.
  induction 1 as [last|last r e N|last e evs res H IH]; intros c r' e' I; [destruct I| |].
  - destruct I as [I|[]]. injection I as <- _ _. reflexivity.
  - destruct I as [I|I]; [injection I as <- _ _; reflexivity|exact (IH _ _ _ I)].
Qed.
Theorem C55_read_rejects_last_unlock_refuted evs o h e : runs ReadWin evs o -> In (Unlock h, 0%Z, e) evs -> o = Fail e.
Proof.
  intros H I. unfold ReadWin in H. apply inv_do in H. destruct H as [f [e0 [evs0 [-> H]]]]. cbv beta in H. destruct I as [I|I]; [discriminate|].
  destruct (f =? 0)%Z; [invs; destruct I|]. apply inv_wait in H. destruct H as [evs1 [res [evs' [-> [W H]]]]]. apply in_app_or in I. destruct I as [I|I]; [apply (waits_open _ _ _ W) in I; discriminate|].
  destruct res; [invs; destruct I|]. invs; cbn [In] in I; repeat (destruct I as [I|I]; [try discriminate I|]); try contradiction; injection I; intros; subst; reflexivity || discriminate.
Qed.
Example C55_read_last_unlock_run : exists evs, runs ReadWin evs (Fail 0) /\ In (Unlock 1, 0%Z, 0%Z) evs.
Proof.
  exists ((IsAvailable, 1, 0) :: [(OpenC, 1, 0)] ++ [(GetData, 1, 0); (Lock 1, 1, 0); (Look 1 [0], 0, 0); (Unlock 1, 0, 0); (CloseC, 1, 0)])%Z. split; [|do 5 right; left; reflexivity].
  unfold ReadWin. apply (r_do _ _ 1%Z 0%Z); cbv beta; cbn [Z.eqb]. eapply r_wait; [apply w_open; discriminate|]. cbv beta iota. apply (r_do _ _ 1%Z 0%Z); cbv beta; cbn [Z.eqb]. apply (r_do _ _ 1%Z 0%Z); cbv beta; cbn [Z.eqb]. apply (r_peek _ _ [0%Z]); cbv beta zeta. apply (r_do _ _ 0%Z 0%Z); cbv beta; cbn [Z.eqb]. apply (r_do _ _ 1%Z 0%Z); cbv beta. constructor.
Qed.
Print Assumptions C55_write_accepts_last_unlock.
Print Assumptions C55_read_rejects_last_unlock_refuted.

(** Every failing call is reported, and nothing else is: Write returns nil only if no call but tries to open failed, and every error it returns is
    the error number of a call that failed.  A call fails by returning 0; releasing the last lock is no failure. *)
Definition failing (ev : Event) : Prop := match ev with (Look _ _, _, _) => False | (Unlock _, r, e) => r = 0%Z /\ e <> 0%Z | (_, r, _) => r = 0%Z end.
Definition opening (ev : Event) : Prop := fst (fst ev) = OpenC.
Lemma waits_reports last evs res : waits last evs res -> Forall opening evs /\ (forall e, res = Some e -> last = Some e \/ In (OpenC, 0%Z, e) evs).
Proof.
  induction 1 as [last|last r e N|last e evs res H [IH1 IH2]]; [split; [constructor|auto]|split; [repeat constructor|discriminate]|]. split; [constructor; [reflexivity|exact IH1]|].
  intros e' E. destruct (IH2 e' E) as [K|K]; [injection K as ->; right; left; reflexivity|right; right; exact K].
Qed.
Theorem C55_write_reports text evs o : runs (WriteWin text) evs o ->
  (o = OkNil /\ forall ev, In ev evs -> failing ev -> opening ev) \/ (exists c r e, o = Fail e /\ In (c, r, e) evs /\ failing (c, r, e)) \/ (o = PanicW /\ In 0%Z text).
Proof.
  intros H. unfold WriteWin in H. apply inv_wait in H. destruct H as [evs1 [res [evs' [-> [W H]]]]]. destruct (waits_reports _ _ _ W) as [W1 W2]. rewrite Forall_forall in W1. destruct res as [e|].
  - invs. right; left. destruct (W2 e eq_refl) as [K|K]; [discriminate K|]. exists OpenC, 0%Z, e. split; [reflexivity|]. split; [rewrite app_nil_r; exact K|reflexivity].
  - assert (L : forall ev, In ev (evs1 ++ evs') -> In ev evs' \/ opening ev) by (intros ev I; apply in_app_or in I; destruct I; [right; auto|left; assumption]). assert (R : forall ev, In ev evs' -> In ev (evs1 ++ evs')) by (intros; apply in_or_app; right; assumption).
    revert L R. generalize (evs1 ++ evs') as all. intros all L R. clear W W1 W2.
    apply inv_do in H. destruct H as [r0 [e0 [evs2 [-> H]]]]. cbv beta in H. destruct (Z.eqb_spec r0 0) as [->|N0]; [invs; right; left; exists EmptyC, 0%Z, e0; repeat split; apply R; left; reflexivity|].
    destruct (StringToUTF16 text) as [data|] eqn:D.
    2: { invs. right; right. split; [reflexivity|]. unfold StringToUTF16 in D. destruct (existsb (Z.eqb 0) text) eqn:X; [|discriminate D]. apply existsb_exists in X. destruct X as [z [I E]]. apply Z.eqb_eq in E. subst z. exact I. }
    apply inv_do in H. destruct H as [h [e1 [evs3 [-> H]]]]. cbv beta in H. destruct (Z.eqb_spec h 0) as [->|N1]; [invs; right; left; eexists _, 0%Z, e1; split; [reflexivity|]; split; [apply R; right; left; reflexivity|reflexivity]|].
    apply inv_do in H. destruct H as [l [e2 [evs4 [-> H]]]]. cbv beta in H. destruct (Z.eqb_spec l 0) as [->|N2]; [invs; right; left; eexists _, 0%Z, e2; split; [reflexivity|]; split; [apply R; do 2 right; left; reflexivity|reflexivity]|].
    apply inv_do in H. destruct H as [r3 [e3 [evs5 [-> H]]]]. cbv beta in H. destruct (Z.eqb_spec r3 0) as [->|N3]; [invs; right; left; eexists _, 0%Z, e3; split; [reflexivity|]; split; [apply R; do 3 right; left; reflexivity|reflexivity]|].
    apply inv_do in H. destruct H as [r4 [e4 [evs6 [-> H]]]]. cbv beta in H. destruct ((r4 =? 0)%Z && negb (e4 =? 0)%Z) eqn:U.
    { apply andb_true_iff in U. destruct U as [U1 U2]. apply Z.eqb_eq in U1. apply negb_true_iff, Z.eqb_neq in U2. subst r4. invs. right; left. eexists _, 0%Z, e4. split; [reflexivity|]. split; [apply R; do 4 right; left; reflexivity|split; [reflexivity|exact U2]]. }
    apply inv_do in H. destruct H as [r5 [e5 [evs7 [-> H]]]]. cbv beta in H. destruct (Z.eqb_spec r5 0) as [->|N5]; [invs; right; left; eexists _, 0%Z, e5; split; [reflexivity|]; split; [apply R; do 5 right; left; reflexivity|reflexivity]|].
    apply inv_do in H. destruct H as [r6 [e6 [evs8 [-> H]]]]. cbv beta in H. destruct (Z.eqb_spec r6 0) as [->|N6]; [invs; right; left; eexists _, 0%Z, e6; split; [reflexivity|]; split; [apply R; do 6 right; left; reflexivity|reflexivity]|].
    invs. left. split; [reflexivity|]. intros ev I F. apply L in I. destruct I as [I|I]; [|exact I]. exfalso. cbn [In] in I. repeat (destruct I as [I|I]; [subst ev; cbn [failing] in F; try contradiction|]); try contradiction.
    destruct F as [F1 F2]. subst r4. apply Z.eqb_neq in F2. rewrite F2 in U. discriminate U.
Qed.
Print Assumptions C55_write_reports.
(** Read: here a released last lock counts as a failure. *)
Definition zero (ev : Event) : Prop := match ev with (Look _ _, _, _) => False | (_, r, _) => r = 0%Z end.
Theorem C55_read_reports evs o : runs ReadWin evs o ->
  (exists s, o = OkText s /\ forall ev, In ev evs -> zero ev -> opening ev) \/ (exists c e, o = Fail e /\ In (c, 0%Z, e) evs /\ zero (c, 0%Z, e)).
Proof.
  intros H. unfold ReadWin in H. apply inv_do in H. destruct H as [f [ef [evsf [-> H]]]]. cbv beta in H. destruct (Z.eqb_spec f 0) as [->|Nf]; [invs; right; exists IsAvailable, ef; repeat split; left; reflexivity|].
  apply inv_wait in H. destruct H as [evs1 [res [evs' [-> [W H]]]]]. destruct (waits_reports _ _ _ W) as [W1 W2]. rewrite Forall_forall in W1. destruct res as [e|].
  - invs. right. destruct (W2 e eq_refl) as [K|K]; [discriminate K|]. exists OpenC, e. split; [reflexivity|]. split; [right; rewrite app_nil_r; exact K|reflexivity].
  - assert (L : forall ev, In ev ((IsAvailable, f, ef) :: evs1 ++ evs') -> In ev ((IsAvailable, f, ef) :: evs') \/ opening ev) by (intros ev [I|I]; [left; left; exact I|]; apply in_app_or in I; destruct I; [right; auto|left; right; assumption]).
    assert (R : forall ev, In ev evs' -> In ev ((IsAvailable, f, ef) :: evs1 ++ evs')) by (intros; right; apply in_or_app; right; assumption).
    revert L R. generalize ((IsAvailable, f, ef) :: evs1 ++ evs') as all. intros all L R. clear W W1 W2.
    apply inv_do in H. destruct H as [h [e0 [evs2 [-> H]]]]. cbv beta in H. destruct (Z.eqb_spec h 0) as [->|N0]; [invs; right; exists GetData, e0; repeat split; apply R; left; reflexivity|].
    apply inv_do in H. destruct H as [l [e1 [evs3 [-> H]]]]. cbv beta in H. destruct (Z.eqb_spec l 0) as [->|N1]; [invs; right; eexists _, e1; split; [reflexivity|]; split; [apply R; right; left; reflexivity|reflexivity]|].
    apply inv_peek in H. destruct H as [mem [evs4 [-> H]]]. cbv beta zeta in H.
    apply inv_do in H. destruct H as [r2 [e2 [evs5 [-> H]]]]. cbv beta in H. destruct (Z.eqb_spec r2 0) as [->|N2]; [invs; right; eexists _, e2; split; [reflexivity|]; split; [apply R; do 3 right; left; reflexivity|reflexivity]|].
    apply inv_do in H. destruct H as [r3 [e3 [evs6 [-> H]]]]. cbv beta in H. destruct (Z.eqb_spec r3 0) as [->|N3]; [invs; right; eexists _, e3; split; [reflexivity|]; split; [apply R; do 4 right; left; reflexivity|reflexivity]|].
    invs. left. eexists. split; [reflexivity|]. intros ev I F. apply L in I. destruct I as [I|I]; [|exact I]. exfalso. cbn [In] in I. repeat (destruct I as [I|I]; [subst ev; cbn [zero] in F; contradiction|]). exact I.
Qed.
Print Assumptions C55_read_reports.
(** Non-vacuity: a write whose unlocking fails with error 6 reports 6. *)
Example C55_case_unlock_fails : exists evs, runs (WriteWin (lit "a")) evs (Fail 6) /\ In (Unlock 1, 0%Z, 6%Z) evs.
Proof.
  exists ([(OpenC, 1, 0)] ++ [(EmptyC, 1, 0); (Alloc 4, 1, 0); (Lock 1, 1, 0); (Strcpy 1 [97; 0], 1, 0); (Unlock 1, 0, 6); (CloseC, 1, 0); (FreeM 1, 0, 0)])%Z. split; [|do 5 right; left; reflexivity].
  unfold WriteWin. eapply r_wait; [apply w_open; discriminate|]. cbv beta iota. apply (r_do EmptyC _ 1%Z 0%Z); cbv beta; cbn [Z.eqb]. 
  replace (StringToUTF16 (lit "a")) with (Some [97; 0]%Z) by (vm_compute; reflexivity). cbn [length Nat.mul Nat.add].
  apply (r_do _ _ 1%Z 0%Z); cbv beta; cbn [Z.eqb]. apply (r_do _ _ 1%Z 0%Z); cbv beta; cbn [Z.eqb]. apply (r_do _ _ 1%Z 0%Z); cbv beta; cbn [Z.eqb].
  apply (r_do _ _ 0%Z 6%Z); cbv beta; cbn [Z.eqb andb negb]. unfold close_free. apply (r_do _ _ 1%Z 0%Z); cbv beta. apply (r_do _ _ 0%Z 0%Z); cbv beta. constructor.
Qed.
