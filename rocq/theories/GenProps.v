(** * Theorems C58: the generate command as a whole. *)
From Coq Require Import String.
From Coq Require Import ZArith Arith List Bool Lia Permutation.
From Verif Require Import Utf8 GoStr PasswordModel PasswordSpec PasswordProofs PasswordProps FormModel FormSpec FormProps ClipModel ClipSpec ClipProps GenModel.
Import ListNotations.
Open Scope nat_scope.

(** ** What the random source determines *)
Lemma pick_more f : forall todo set ar res rng k, pick f todo set ar res rng <> OutOfFuel -> pick (f + k) todo set ar res rng = pick f todo set ar res rng.
Proof.
  induction f as [|f IH]; intros [|todo] set ar res rng k H; try (destruct k; reflexivity).
  - exfalso. apply H. reflexivity.
  - cbn [Nat.add pick] in *. destruct (randomElement rng set) as [ch rest|e| |]; try reflexivity.
    destruct (negb ar && contains res ch); [apply IH; exact H|]. destruct (randomInsert rest res ch) as [r' rest'|e| |]; try reflexivity. apply IH. exact H.
Qed.
Lemma pick_same f1 f2 todo set ar res rng : pick f1 todo set ar res rng <> OutOfFuel -> pick f2 todo set ar res rng <> OutOfFuel -> pick f1 todo set ar res rng = pick f2 todo set ar res rng.
Proof. intros A B. rewrite <- (pick_more f1 _ _ _ _ _ f2 A), <- (pick_more f2 _ _ _ _ _ f1 B), Nat.add_comm. reflexivity. Qed.
Lemma Generate_same f1 f2 g rng len nd ns nu ar : Generate f1 g rng len nd ns nu ar <> OutOfFuel -> Generate f2 g rng len nd ns nu ar <> OutOfFuel ->
  Generate f1 g rng len nd ns nu ar = Generate f2 g rng len nd ns nu ar.
Proof.
  unfold Generate. destruct (_ <? 0)%Z; [reflexivity|]. destruct (negb ar && _); [reflexivity|]. destruct (negb ar && _); [reflexivity|]. destruct (negb ar && _); [reflexivity|].
  intros A B. set (p1 := fun f => pick f (Z.to_nat (len - nd - ns)) (letters g nu) ar [] rng).
  assert (E1 : p1 f1 = p1 f2). { apply pick_same; intros E; [apply A|apply B]; rewrite E; reflexivity. }
  unfold p1 in E1. rewrite E1 in *. clear E1. destruct (pick f2 (Z.to_nat (len - nd - ns)) (letters g nu) ar [] rng) as [r1 g1|e| |]; try reflexivity.
  assert (E2 : pick f1 (Z.to_nat nd) (digits g) ar r1 g1 = pick f2 (Z.to_nat nd) (digits g) ar r1 g1). { apply pick_same; intros E; [apply A|apply B]; rewrite E; reflexivity. }
  rewrite E2 in *. destruct (pick f2 (Z.to_nat nd) (digits g) ar r1 g1) as [r2 g2|e| |]; try reflexivity. apply pick_same; assumption.
Qed.
Lemma run_same f1 f2 rng len n s mixed unique form : generate_run f1 rng len n s mixed unique form <> OutOfFuel -> generate_run f2 rng len n s mixed unique form <> OutOfFuel ->
  generate_run f1 rng len n s mixed unique form = generate_run f2 rng len n s mixed unique form.
Proof.
  destruct form as [f|]; cbn [generate_run]; [|apply Generate_same]. intros A B. rewrite (Generate_same f1 f2); [reflexivity| |]; intros E; [apply A|apply B]; rewrite E; reflexivity.
Qed.
(** ** Passwords are printable *)
Definition printable (c : Z) : Prop := (33 <= c <= 126)%Z.
Lemma defaults_printable nu b : In b (letters (NewGenerator None) nu ++ digits (NewGenerator None) ++ symbols (NewGenerator None)) -> printable b.
Proof.
  assert (F : Forall printable (letters (NewGenerator None) false ++ digits (NewGenerator None) ++ symbols (NewGenerator None))).
  { vm_compute. repeat (constructor; [split; intros E; discriminate E|]). constructor. }
  rewrite Forall_forall in F. intros I. apply F. destruct nu; [|exact I]. rewrite !in_app_iff in *. unfold letters in *. rewrite in_app_iff. tauto.
Qed.
Lemma follows_printable (A : Z -> Prop) f o : (forall c, A c -> printable c) -> follows A f o -> Forall printable o.
Proof.
  intros HA H. induction H; try constructor; auto; unfold printable, lower, upper, digit, symbol, separator in *; try lia.
Qed.
Lemma run_printable fuel rng len n s mixed unique form out rest : bytes rng -> generate_run fuel rng len n s mixed unique form = Ok out rest -> Forall printable out.
Proof.
  intros B E. destruct form as [f|].
  - eapply follows_printable; [|exact (C37_form_followed _ _ _ _ _ _ _ _ _ _ B E)]. unfold may_be_a, lower, upper, digit, symbol, printable. intros c H. lia.
  - cbn [generate_run] in E. destruct (Generate_ok _ _ _ _ _ _ _ _ _ _ B E) as [ls [ds [ss [P [_ [_ [_ [I1 [I2 [I3 _]]]]]]]]]].
    assert (F : Forall printable (ls ++ ds ++ ss)).
    { apply Forall_app. split; [|apply Forall_app; split]; (eapply Forall_impl; [|eassumption]); cbv beta; intros b I; apply (defaults_printable (negb mixed)); rewrite !in_app_iff; auto. }
    apply Forall_forall. intros c I. apply (Permutation_in _ P) in I. apply in_concat in I. destruct I as [w [I1' I2']]. apply in_map_iff in I1'. destruct I1' as [b [<- Ib]].
    rewrite Forall_forall in F. specialize (F b Ib). unfold string_of_byte in I2'. destruct (Z.ltb_spec b 128) as [L|L]; [|unfold printable in F; lia]. destruct I2' as [<-|[]]. exact F.
Qed.
Lemma printable_utf16 pw : Forall printable pw -> StringToUTF16 pw = Some (pw ++ [0%Z]).
Proof.
  intros F. unfold StringToUTF16. destruct (existsb (Z.eqb 0) pw) eqn:X.
  { apply existsb_exists in X. destruct X as [z [I E]]. apply Z.eqb_eq in E. subst. rewrite Forall_forall in F. apply F in I. unfold printable in I. lia. }
  rewrite runes_all_ascii by (eapply Forall_impl; [|exact F]; unfold printable; cbv beta; lia). do 2 f_equal. unfold utf16. clear X.
  induction F as [|c pw P F IH]; [reflexivity|]. cbn [map concat]. rewrite IH. unfold utf16_rune. destruct (Z.leb_spec 65536 c) as [L|L]; [unfold printable in P; lia|reflexivity].
Qed.
(** Everything copied into memory by WriteWin is the text. *)
Lemma strcpy_text text evs o l data r e : runs (WriteWin text) evs o -> In (Strcpy l data, r, e) evs -> StringToUTF16 text = Some data.
Proof.
  intros W I1. apply write_runs in W. destruct W as [m [F H]].
  assert (K : forall evs', runs (after_open text) evs' o -> In (Strcpy l data, r, e) evs' -> StringToUTF16 text = Some data).
  { clear. intros evs H I. unfold after_open, WriteWin in H. apply inv_do in H. destruct H as [r0 [e' [evs' [-> H]]]]. destruct I as [I|I]; [discriminate|]. cbv beta in H.
    destruct (r0 =? 0)%Z eqn:B0; [invs; destruct I as [I|[]]; discriminate|].
    destruct (StringToUTF16 text) as [d|]; [|invs; destruct I]. invs; cbn [In] in I; repeat destruct I as [I|I]; try discriminate; try contradiction; injection I as _ -> _ _; reflexivity. }
  assert (Im : ~ In (Strcpy l data, r, e) m). { intros J. rewrite Forall_forall in F. apply F in J. destruct J as [x J]. discriminate. }
  destruct H as [[r0 [e1 [evs' [-> [_ H]]]]]|[[e1 [_ [-> _]]]|[-> H]]]; [|contradiction|exact (K _ H I1)]. apply in_app_or in I1. destruct I1 as [I|[I|I]]; [contradiction|discriminate|]. exact (K _ H I).
Qed.
Lemma no_nul_no_panic text evs : ~ In 0%Z text -> ~ runs (WriteWin text) evs PanicW.
Proof.
  intros N W. apply write_runs in W. destruct W as [m [F H]].
  assert (K : forall evs', ~ runs (after_open text) evs' PanicW).
  { clear - N. intros evs H. unfold after_open, WriteWin in H. apply inv_do in H. destruct H as [r0 [e' [evs' [-> H]]]]. cbv beta in H.
    destruct (r0 =? 0)%Z; [invs; discriminate|]. unfold StringToUTF16 in H. destruct (existsb (Z.eqb 0) text) eqn:X; [apply existsb_exists in X; destruct X as [z [I E]]; apply Z.eqb_eq in E; subst; contradiction|]. invs; discriminate. }
  destruct H as [[r0 [e1 [evs' [-> [_ H]]]]]|[[e1 [_ [_ H]]]|[-> H]]]; [exact (K _ H)|discriminate H|exact (K _ H)].
Qed.

(** ** The theorems *)
(** The command never crashes: it returns the error of the password generator and does nothing else, or prints a printable password on a line of
    its own and returns nil, whatever the clipboard does. *)
Theorem C58_prints_or_reports m rng a eff : bytes rng -> Generate_Run m rng a eff ->
  (exists e, eff = {| printed := []; started := None; calls := []; ended := Returned (Some e) |})
  \/ exists pw, printed eff = pw ++ [10%Z] /\ ended eff = Returned None /\ Forall printable pw.
Proof.
  intros B H. inversion H as [fuel e E|fuel E|fuel res rest E C|fuel res rest s evs back E C W]; subst.
  - left. eauto.
  - exfalso. exact (C37_never_panics _ _ _ _ _ _ _ _ B E).
  - right. exists res. split; [reflexivity|]. split; [reflexivity|]. exact (run_printable _ _ _ _ _ _ _ _ _ _ B E).
  - right. pose proof (run_printable _ _ _ _ _ _ _ _ _ _ B E) as P. exists res. inversion W; subst; try (split; [reflexivity|]; split; [reflexivity|exact P]).
    destruct o; try (split; [reflexivity|]; split; [reflexivity|exact P]). exfalso. revert H0. apply no_nul_no_panic. intros I. rewrite Forall_forall in P. apply P in I. unfold printable in I. lia.
Qed.
(** The random source alone decides what is printed and returned: two runs with the same password options agree, whatever the system, the clipboard, -c,
    --in-place and the pass name (which is therefore ignored, although the help says its password is set). *)
Theorem C58_printed_independent_of_clipboard m m' rng a a' eff eff' : bytes rng ->
  gSymbols a' = gSymbols a -> gNumbers a' = gNumbers a -> gMixed a' = gMixed a -> gUnique a' = gUnique a -> gForm a' = gForm a -> gLength a' = gLength a ->
  Generate_Run m rng a eff -> Generate_Run m' rng a' eff' -> printed eff' = printed eff /\ ended eff' = ended eff.
Proof.
  intros B E1 E2 E3 E4 E5 E6 H H'.
  assert (X : forall m a eff, Generate_Run m rng a eff -> exists fuel r, generate_run fuel rng (gLength a) (gNumbers a) (gSymbols a) (gMixed a) (gUnique a) (gForm a) = r /\ r <> OutOfFuel /\
    match r with Ok pw _ => printed eff = pw ++ [10%Z] /\ ended eff = Returned None | Err e => printed eff = [] /\ ended eff = Returned (Some e) | _ => False end).
  { clear - B. intros m a eff H. inversion H as [fuel e E|fuel E|fuel res rest E C|fuel res rest s evs back E C W]; subst; exists fuel; eexists; (split; [exact E|]); (split; [discriminate|]); cbn; auto.
    - exact (C37_never_panics _ _ _ _ _ _ _ _ B E).
    - destruct back; [auto|]. exfalso. inversion W; subst. destruct o; try discriminate. match goal with R : runs _ _ PanicW |- _ => revert R end. apply no_nul_no_panic. intros I. pose proof (run_printable _ _ _ _ _ _ _ _ _ _ B E) as P. rewrite Forall_forall in P. apply P in I. unfold printable in I. lia. }
  destruct (X _ _ _ H) as [f [r [R [N Y]]]]. destruct (X _ _ _ H') as [f' [r' [R' [N' Y']]]]. rewrite E1, E2, E3, E4, E5, E6 in R'.
  assert (Q : r' = r) by (rewrite <- R, <- R'; apply run_same; congruence). rewrite Q in Y'. clear - Y Y'. destruct r; try contradiction; destruct Y as [Y1 Y2]; destruct Y' as [Y3 Y4]; split; congruence.
Qed.
(** Without -c, and without a password, no program is started and no API is called. *)
Theorem C58_clipboard_only_on_request m rng a eff : Generate_Run m rng a eff -> gClip a = false \/ ended eff <> Returned None -> bytes rng -> started eff = None /\ calls eff = [].
Proof.
  intros H D B. inversion H as [fuel e E|fuel E|fuel res rest E C|fuel res rest s evs back E C W]; subst; auto. exfalso.
  destruct D as [D|D]; [congruence|]. destruct (C58_prints_or_reports _ _ _ _ B H) as [[e X]|[pw [_ [X _]]]]; [|congruence]. destruct back; [|injection X; intros; discriminate]. injection X. intros; discriminate.
Qed.
(** On Unix -c copies nothing, ever. *)
Theorem C58_unix_never_copies_refuted b rng a eff : Generate_Run (OnUnix b) rng a eff -> started eff = None /\ calls eff = [].
Proof.
  intros H. inversion H as [fuel e E|fuel E|fuel res rest E C|fuel res rest s evs back E C W]; subst; auto. inversion W; subst. cbn. split; [|reflexivity].
  match goal with W1 : WriteUnix _ _ _ = _ |- _ => unfold WriteUnix in W1; destruct (Unsupported (init b)) eqn:U; [congruence|clear W1] end. exfalso. revert U. unfold init. repeat match goal with |- context [if ?c then _ else _] => destruct c end; discriminate.
Qed.
(** On macOS the only program started is pbcopy; it gets the printed password or, if writing to it fails, a beginning of it. *)
Theorem C58_mac rng a eff args sent : bytes rng -> Generate_Run OnMac rng a eff -> started eff = Some (args, sent) -> args = [lit "pbcopy"] /\ exists rest, printed eff = sent ++ rest ++ [10%Z].
Proof.
  intros B H S0. inversion H as [fuel e E|fuel E|fuel res rest E C|fuel res rest s evs back E C W]; subst; try discriminate. inversion W; subst. cbn in S0. subst s.
  match goal with W1 : WriteMac _ _ = _ |- _ => destruct (C54_mac_write _ _ _ _ W1) as [_ [_ X]] end. destruct (X _ _ eq_refl) as [-> [r ->]]. split; [reflexivity|]. exists r. cbn. rewrite app_assoc. reflexivity.
Qed.
(** On Windows no program is started; only the printed password, as zero-terminated UTF-16, is copied into clipboard memory. *)
Theorem C58_windows rng a eff l data r e : bytes rng -> Generate_Run OnWindows rng a eff -> started eff = None /\ (In (Strcpy l data, r, e) (calls eff) -> exists pw, printed eff = pw ++ [10%Z] /\ data = pw ++ [0%Z]).
Proof.
  intros B H. inversion H as [fuel e0 E|fuel E|fuel res rest E C|fuel res rest s evs back E C W]; subst; try (split; [reflexivity|intros []]). inversion W; subst.
  pose proof (run_printable _ _ _ _ _ _ _ _ _ _ B E) as P. destruct (C58_prints_or_reports _ _ _ _ B H) as [[e0 X]|[pw [X [Y _]]]].
  - destruct o; discriminate X.
  - split; [destruct o; reflexivity|]. intros I. exists res. assert (I' : In (Strcpy l data, r, e) evs) by (destruct o; exact I). match goal with W1 : runs _ _ _ |- _ => pose proof (strcpy_text _ _ _ _ _ _ _ W1 I') as D end. rewrite (printable_utf16 res P) in D. injection D as <-. split; [|reflexivity].
    destruct o; try reflexivity. discriminate Y.
Qed.
(** ** Not vacuous *)
Definition gen_args : GenerateCmd := {| gSymbols := 0; gNumbers := 1; gMixed := false; gUnique := false; gClip := true; gInPlace := true; gForm := None; gLength := 3; gPassName := lit "sites/x" |}.
Example C58_case_mac : exists eff, Generate_Run OnMac [7; 12; 1; 3; 2]%Z gen_args eff /\ started eff = Some ([lit "pbcopy"], lit "hm3") /\ printed eff = lit "hm3" ++ [10%Z].
Proof.
  eexists. split.
  - apply (gr_clip OnMac _ gen_args 9 (lit "hm3") [] (Some ([lit "pbcopy"], lit "hm3")) [] true); [vm_compute; reflexivity|reflexivity|].
    apply (cw_mac _ {| p_pipe := true; p_start := true; p_write := None; p_close := true; p_wait := true |} _ true). reflexivity.
  - split; reflexivity.
Qed.
Example C58_case_unix b : exists eff, Generate_Run (OnUnix b) [7; 12; 1; 3; 2]%Z gen_args eff /\ started eff = None /\ ended eff = Returned None.
Proof.
  destruct (WriteUnix (init b) (lit "hm3") {| p_pipe := true; p_start := true; p_write := None; p_close := true; p_wait := true |}) as [s ok] eqn:W.
  pose proof (gr_clip (OnUnix b) [7; 12; 1; 3; 2]%Z gen_args 9 (lit "hm3") [] s [] true ltac:(vm_compute; reflexivity) eq_refl (cw_unix _ _ _ _ _ W)) as G. eexists. split; [exact G|]. split; [exact (proj1 (C58_unix_never_copies_refuted _ _ _ _ G))|reflexivity].
Qed.
Example C58_case_windows : exists eff l, Generate_Run OnWindows [7; 12; 1; 3; 2]%Z gen_args eff /\ In (Strcpy l (lit "hm3" ++ [0%Z]), 1%Z, 0%Z) (calls eff).
Proof.
  eexists. exists 1%Z. split.
  - apply (gr_clip OnWindows _ gen_args 9 (lit "hm3") [] None [(OpenC, 1, 0); (EmptyC, 1, 0); (Alloc 8, 1, 0); (Lock 1, 1, 0); (Strcpy 1 (lit "hm3" ++ [0]), 1, 0); (Unlock 1, 1, 0); (SetData 1, 1, 0); (CloseC, 1, 0)]%Z true); [vm_compute; reflexivity|reflexivity|].
    apply (cw_win _ _ OkNil). unfold WriteWin. apply (r_wait _ [(OpenC, 1, 0)%Z] None _ _ (w_open None 1 0 ltac:(discriminate))). 
    change (StringToUTF16 (lit "hm3")) with (Some (lit "hm3" ++ [0%Z])). repeat (apply r_do; cbv beta iota; cbn [Z.eqb andb negb]). constructor.
  - right. right. right. right. left. reflexivity.
Qed.
Print Assumptions C58_prints_or_reports.
Print Assumptions C58_printed_independent_of_clipboard.
Print Assumptions C58_clipboard_only_on_request.
Print Assumptions C58_unix_never_copies_refuted.
Print Assumptions C58_mac.
Print Assumptions C58_windows.
