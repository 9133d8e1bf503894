(** * C75: reading a file line by line when reads fail or the file changes meanwhile. *)
From Coq Require Import String.
From Coq Require Import ZArith Arith List Bool Lia.
From Verif Require Import GoStr FsModel CmModel RepoModel RepoSpec RepoLines RepoProps ReadModel.
Import ListNotations.
Open Scope nat_scope.

(** ** Specification *)
(** All bytes the reads delivered. *)
Fixpoint delivered (tr : list Reply) : str := match tr with [] => [] | Chunk c :: r => c ++ delivered r | _ :: r => delivered r end.
(** The reads came to the end of the file or to an error. *)
Definition ended (tr : list Reply) : Prop := In EndOfFile tr \/ In ReadError tr.

(** ** The scanner of RepoModel foresees what will be delivered *)
Definition with_rest (s : Sc) (r : str) : Scanner := {| used := sused s; data := sdata s; size := ssize s; rest := r; eof := stopped s |}.
Definition with_rest_o (o : Out) (r : str) : Scanned1 := match o with OToken t s => Token t (with_rest s r) | ONoMore => NoMore end.
Lemma delivered_app a b : delivered (a ++ b) = delivered a ++ delivered b.
Proof. induction a as [|[c| |] a IH]; cbn [app delivered]; [reflexivity|rewrite IH; apply app_assoc|exact IH|exact IH]. Qed.
Lemma ended_app a b : ended (a ++ b) <-> ended a \/ ended b.
Proof. unfold ended. rewrite !in_app_iff. tauto. Qed.
(** Once stopped there are no more reads. *)
Lemma scanr_stopped s tr o : scanr s tr o -> stopped s = true -> tr = [] /\ forall t s', o = OToken t s' -> stopped s' = true.
Proof.
  intros H E. inversion H as [s0 a b D Sp|s0 St D Sp|s0 St D|s0 St Sp used' F M|s0 rp tr0 o0 St Sp used' full Fu size' used'' C K]; subst; try congruence; (split; [reflexivity|]); intros t s' X; inversion X; subst; auto; discriminate.
Qed.
Lemma scanr_ended s tr o : scanr s tr o -> ended tr -> forall t s', o = OToken t s' -> stopped s' = true.
Proof.
  induction 1 as [s a b D Sp|s St D Sp|s St D|s St Sp used' F M|s rp tr o St Sp used' full Fu size' used'' C K IH]; intros En t s' E; try (destruct En as [[]|[]]; fail).
  destruct rp as [c| |].
  - apply (IH ltac:(destruct En as [[X|X]|[X|X]]; [discriminate|left; exact X|discriminate|right; exact X]) _ _ E).
  - eapply scanr_stopped; [exact K|reflexivity|exact E].
  - eapply scanr_stopped; [exact K|reflexivity|exact E].
Qed.
Lemma foresee s tr o : scanr s tr o -> forall R, (ended tr -> R = []) -> scan1 (with_rest s (delivered tr ++ R)) (with_rest_o o R).
Proof.
  induction 1 as [s a b D Sp|s St D Sp|s St D|s St Sp used' F M|s rp tr o St Sp used' full Fu size' used'' C K IH]; intros R En.
  - cbn [delivered app]. apply (sc_line (with_rest s R) a b); assumption.
  - cbn [delivered app with_rest_o]. pose proof (sc_last (with_rest s R) St D Sp) as X. exact X.
  - cbn [delivered app]. apply sc_end; assumption.
  - cbn [delivered app]. apply sc_long; assumption.
  - destruct rp as [c| |].
    + destruct (C c eq_refl) as [Nc Fc]. apply (sc_read (with_rest s _) (length c)); cbn [with_rest rest used data size eof]; try assumption.
      * intros _. cbn [delivered]. rewrite !app_length. destruct c; [contradiction|]. cbn [length] in *. split; [lia|exact Fc].
      * intros X. exfalso. cbn [delivered] in X. destruct c; [contradiction|discriminate].
      * cbn [delivered]. rewrite <- app_assoc. rewrite firstn_app, firstn_all, Nat.sub_diag, firstn_O, app_nil_r. rewrite skipn_app, skipn_all, Nat.sub_diag. cbn [app skipn]. destruct (c ++ delivered tr ++ R) eqn:E; [destruct c; [contradiction|discriminate]|]. apply IH. intros X. apply En. destruct X; [left|right]; right; assumption.
    + destruct (scanr_stopped _ _ _ K eq_refl) as [-> _]. rewrite (En ltac:(left; left; reflexivity)) in *. apply (sc_read (with_rest s _) 0); cbn [with_rest rest used data size eof delivered app]; try assumption; try contradiction; [reflexivity|].
      cbn [firstn skipn]. apply (IH []). intros _; reflexivity.
    + destruct (scanr_stopped _ _ _ K eq_refl) as [-> _]. rewrite (En ltac:(right; left; reflexivity)) in *. apply (sc_read (with_rest s _) 0); cbn [with_rest rest used data size eof delivered app]; try assumption; try contradiction; [reflexivity|].
      cbn [firstn skipn]. apply (IH []). intros _; reflexivity.
Qed.
Section Foresee.
  Context {St : Type} (handle : nat -> str -> St -> St * HErr).
  Lemma lines_stopped s line tr st st' e : lines_from handle s line tr st st' e -> stopped s = true -> tr = [].
  Proof.
    induction 1 as [s line tr st Sc|s s' tr text st Sc B|s s' line tr text st st' h Sc B Hh Nh|s s' line tr tr' text st st' st'' e Sc B Hh K IH]; intros E; try (destruct (scanr_stopped _ _ _ Sc E) as [-> X]; reflexivity).
    destruct (scanr_stopped _ _ _ Sc E) as [-> X]. rewrite (IH (X _ _ eq_refl)). reflexivity.
  Qed.
  Lemma lines_foresee s line tr st st' e : lines_from handle s line tr st st' e -> forall R, (ended tr -> R = []) -> read_lines handle (with_rest s (delivered tr ++ R)) line st st' e.
  Proof.
    induction 1 as [s line tr st Sc|s s' tr text st Sc B|s s' line tr text st st' h Sc B Hh Nh|s s' line tr tr' text st st' st'' e Sc B Hh K IH]; intros R En.
    - apply rl_end. exact (foresee _ _ _ Sc R En).
    - apply (rl_binary _ _ (with_rest s' R) text); [exact (foresee _ _ _ Sc R En)|exact B].
    - eapply rl_stop with (s' := with_rest s' R) (text := text); [exact (foresee _ _ _ Sc R En)|exact B|exact Hh|exact Nh].
    - rewrite delivered_app, <- app_assoc. eapply rl_next with (s' := with_rest s' (delivered tr' ++ R)) (text := text); [|exact B|exact Hh|apply IH; intros X; apply En, ended_app; auto].
      apply (foresee _ _ _ Sc). intros X. rewrite (lines_stopped _ _ _ _ _ _ K (scanr_ended _ _ _ Sc X _ _ eq_refl)) in *. cbn [delivered app]. apply En, ended_app. auto.
  Qed.
End Foresee.

(** ** Any replies *)
(** Whatever the reads answer, the handler sees the lines of what was delivered, as of a file with that content: an error looks like the end of the file, and no
    error is returned.  If the reading stopped before an end, it is as for a file that begins with what was delivered, whatever follows. *)
Theorem C75_lines {St} (handle : nat -> str -> St -> St * HErr) tr st st' e content texts :
  lines_of_replies handle tr st st' e -> (exists after, content = delivered tr ++ after /\ (ended tr -> after = [])) -> shown content texts ->
  (binary texts /\ st' = st /\ e = LBinary) \/ (~ binary texts /\ st' = handle_all handle 1 texts st /\ e = LNil).
Proof.
  intros H [R [-> En]] T. pose proof (lines_foresee handle _ _ _ _ _ _ H R En) as X.
  set (w := {| tree := [(lit "f", File (delivered tr ++ R))]; cwd := [] |}). assert (O : open_read w (lit "f") = Some (delivered tr ++ R)) by reflexivity.
  exact (C32_lines handle w (lit "f") st st' e _ texts O T (gf_read _ _ _ _ _ _ _ O X)).
Qed.
(** Searching likewise: the matching lines of what was delivered. *)
Theorem C75_search tr p ms : search_replies tr (yes_no p) ms ->
  forall content texts, (exists after, content = delivered tr ++ after /\ (ended tr -> after = [])) -> shown content texts -> matching p texts ms.
Proof.
  intros [e H] content texts C T. destruct (C75_lines _ _ _ _ _ _ _ H C T) as [[B [-> _]]|[B [-> _]]]; [left; auto|right]. split; [exact B|]. apply search_all.
Qed.

(** Every content can be delivered, followed by the end of the file or by an error: the reading ends. *)
Definition forget (s : Scanner) : Sc := {| sused := used s; sdata := data s; ssize := size s; stopped := eof s |}.
Definition forget_o (o : Scanned1) : Out := match o with Token t s => OToken t (forget s) | NoMore => ONoMore end.
Section Exists.
  Variable last : Reply.
  Hypothesis Last : last = EndOfFile \/ last = ReadError.
  Lemma scan1_replies s o : scan1 s o -> (eof s = true -> rest s = []) ->
    exists tr, scanr (forget s) tr (forget_o o) /\ (forall x, In x tr -> x = last \/ exists c, x = Chunk c) /\
      match o with Token _ s' => rest s = delivered tr ++ rest s' /\ (In last tr -> rest s' = []) /\ (eof s' = true -> rest s' = []) | NoMore => exists after, rest s = delivered tr ++ after /\ (In last tr -> after = []) end.
  Proof.
    induction 1 as [s a b D Sp|s E D Sp|s E D|s E Sp used' F M|s k o E Sp used' full Fu size' used'' C1 C2 K IH]; intros Er.
    - exists []. split; [apply sr_line; assumption|]. split; [intros x []|]. cbn [delivered app rest]. split; [reflexivity|]. split; [intros []|exact Er].
    - exists []. split; [apply (sr_last (forget s)); assumption|]. split; [intros x []|]. cbn [delivered app rest]. split; [reflexivity|]. split; [intros []|intros _; apply Er; exact E].
    - exists []. split; [apply sr_end; assumption|]. split; [intros x []|]. exists (rest s). split; [reflexivity|intros []].
    - exists []. split; [apply sr_long; assumption|]. split; [intros x []|]. exists (rest s). split; [reflexivity|intros []].
    - destruct (rest s) as [|z r] eqn:Rs.
      + rewrite (C2 eq_refl) in *. cbn [firstn skipn] in *. destruct IH as [tr [H1 [H2 H3]]]; [reflexivity|]. destruct (scanr_stopped _ _ _ H1 eq_refl) as [-> _]. exists [last]. split; [|split].
        * apply sr_read; try assumption; [intros c X; destruct Last as [L|L]; rewrite L in X; discriminate|]. destruct Last as [L|L]; rewrite L; exact H1.
        * intros x [<-|[]]. auto.
        * destruct o as [t s'|]; cbn [delivered] in H3 |- *.
          -- destruct H3 as [X [_ Y]]. cbn [rest] in X. destruct Last as [L|L]; rewrite L; cbn [delivered app]; (split; [exact X|]; split; [intros _; symmetry; exact X|exact Y]).
          -- exists []. destruct Last as [L|L]; rewrite L; split; reflexivity.
      + destruct (C1 ltac:(discriminate)) as [[K1 K2] K3]. destruct IH as [tr [H1 [H2 H3]]]; [discriminate|]. set (c := firstn k (z :: r)) in *. assert (Lc : length c = k) by (apply firstn_length_le; exact K2).
        assert (Nl : forall c', last <> Chunk c') by (intros c' X; destruct Last; congruence). exists (Chunk c :: tr). split; [|split].
        * apply sr_read; try assumption. intros c' X. injection X as <-. split; [intros X; rewrite X in Lc; cbn in Lc; lia|]. rewrite Lc. exact K3.
        * intros x [<-|I]; [right; eauto|auto].
        * cbn [rest delivered] in *. rewrite <- (firstn_skipn k (z :: r)). fold c. destruct o as [t s'|].
          -- destruct H3 as [X [Y Z]]. rewrite X, app_assoc. split; [reflexivity|]. split; [|exact Z]. intros [Q|Q]; [exfalso; eapply Nl; eauto|exact (Y Q)].
          -- destruct H3 as [after [X Y]]. exists after. rewrite X, app_assoc. split; [reflexivity|]. intros [Q|Q]; [exfalso; eapply Nl; eauto|exact (Y Q)].
  Qed.
  Context {St : Type} (handle : nat -> str -> St -> St * HErr).
  Lemma lines_replies s line st st' e : read_lines handle s line st st' e -> (eof s = true -> rest s = []) ->
    exists tr after, lines_from handle (forget s) line tr st st' e /\ (forall x, In x tr -> x = last \/ exists c, x = Chunk c) /\ rest s = delivered tr ++ after /\ (In last tr -> after = []).
  Proof.
    induction 1 as [s line st Sc|s s' text st Sc B|s s' line text st st' h Sc B Hh Nh|s s' line text st st' st'' e Sc B Hh K IH]; intros Er; destruct (scan1_replies _ _ Sc Er) as [tr [H1 [H2 H3]]].
    - destruct H3 as [after [X Y]]. exists tr, after. split; [apply lf_end; exact H1|auto].
    - destruct H3 as [X [Y _]]. exists tr, (rest s'). split; [eapply lf_binary; eassumption|auto].
    - destruct H3 as [X [Y _]]. exists tr, (rest s'). split; [eapply lf_stop; eassumption|auto].
    - destruct H3 as [X [Y Z]]. destruct (IH Z) as [tr' [after [H4 [H5 [H6 H7]]]]]. exists (tr ++ tr'), after. split; [eapply lf_next; eassumption|]. split; [intros x I; apply in_app_iff in I; destruct I; auto|].
      rewrite delivered_app, <- app_assoc, <- H6. split; [exact X|]. intros I. apply in_app_iff in I. destruct I as [I|I]; [|exact (H7 I)]. specialize (Y I). rewrite Y in H6. symmetry in H6. apply app_eq_nil in H6. apply H6.
  Qed.
End Exists.
Theorem C75_total {St} (handle : nat -> str -> St -> St * HErr) st content last : last = EndOfFile \/ last = ReadError ->
  exists tr after st' e, lines_of_replies handle tr st st' e /\ content = delivered tr ++ after /\ (ended tr -> after = []) /\ (forall x, In x tr -> x = last \/ exists c, x = Chunk c).
Proof.
  intros L. set (w := {| tree := [(lit "f", File content)]; cwd := [] |}). destruct (get_total handle w (lit "f") st) as [st' [e G]].
  assert (O : open_read w (lit "f") = Some content) by reflexivity. inversion G as [O'|c ? ? O' Rl]; subst; [rewrite O in O'; discriminate|]. rewrite O in O'. injection O' as <-.
  destruct (lines_replies last L handle _ _ _ _ _ Rl ltac:(discriminate)) as [tr [after [H1 [H2 [H3 H4]]]]]. exists tr, after, st', e. split; [exact H1|]. split; [exact H3|]. split; [|exact H2].
  intros [I|I]; destruct (H2 _ I) as [X|[c X]]; try discriminate; subst last; exact (H4 I).
Qed.

(** ** Files that change *)
(** An end is the last reply. *)
Lemma scanr_last s tr o : scanr s tr o -> forall a x b, tr = a ++ x :: b -> (forall c, x <> Chunk c) -> b = [].
Proof.
  induction 1 as [s a b D Sp|s St D Sp|s St D|s St Sp used' F M|s rp tr o St Sp used' full Fu size' used'' C K IH]; intros a0 x0 b0 E Nx; try (destruct a0; discriminate).
  destruct a0 as [|y a0]; cbn [app] in E; injection E as -> E; [|exact (IH _ _ _ E Nx)]. destruct x0 as [c| |]; [exfalso; eapply Nx; reflexivity| |]; (destruct (scanr_stopped _ _ _ K eq_refl) as [-> _]; congruence).
Qed.
Lemma lines_last {St} (handle : nat -> str -> St -> St * HErr) s line tr st st' e : lines_from handle s line tr st st' e -> forall a x b, tr = a ++ x :: b -> (forall c, x <> Chunk c) -> b = [].
Proof.
  induction 1 as [s line tr st Sc|s s' tr text st Sc B|s s' line tr text st st' h Sc B Hh Nh|s s' line tr tr' text st st' st'' e Sc B Hh K IH]; intros a x b E Nx; try exact (scanr_last _ _ _ Sc _ _ _ E Nx).
  apply app_eq_app in E. destruct E as [l [[-> E]|[-> E]]].
  - destruct l as [|y l]; cbn [app] in E; [exact (IH [] x b (eq_sym E) Nx)|]. injection E as <- ->. assert (Z : l = []) by exact (scanr_last _ _ _ Sc _ _ _ eq_refl Nx). subst l.
    cbn [app]. apply (lines_stopped handle _ _ _ _ _ _ K). apply (scanr_ended _ _ _ Sc) with (t := text); [|reflexivity]. unfold ended. rewrite !in_app_iff. destruct x as [c| |]; [exfalso; eapply Nx; reflexivity|left; right; left; reflexivity|right; right; left; reflexivity].
  - exact (IH _ _ _ E Nx).
Qed.
Lemma grown F tr : forall t t' off P x, replies_of F t off tr t' -> (forall u v, t <= u -> u <= v -> v <= t' -> exists y, F v = F u ++ y) -> F t = P ++ x -> length P = off ->
  t <= t' /\ exists y, F t' = P ++ delivered tr ++ y.
Proof.
  induction tr as [|rp tr IH]; intros t t' off P x H G E L; inversion H as [|? u ? ? c after ? Lu Sk Nc K|? u ? ? ? Lu Le K|? u ? ? ? Lu K]; subst; cbn [delivered app].
  - split; [apply le_n|eauto].
  - assert (Lt : u <= t') by (clear - K; induction K; lia). destruct (G t u ltac:(lia) Lu Lt) as [y Ey]. rewrite E, <- app_assoc in Ey. rewrite Ey, skipn_app, skipn_all, Nat.sub_diag in Sk. cbn [app skipn] in Sk.
    destruct (IH u t' _ (P ++ c) after K) as [L1 [y1 E1]]; [intros u1 v1 ? ? ?; apply G; lia|rewrite Ey, Sk, app_assoc; reflexivity|apply app_length|]. split; [lia|]. exists y1. rewrite E1, !app_assoc. reflexivity.
  - assert (Lt : u <= t') by (clear - K; induction K; lia). destruct (G t u ltac:(lia) Lu Lt) as [y Ey]. rewrite E, <- app_assoc in Ey. destruct (IH u t' _ P (x ++ y) K) as [L1 X]; [intros u1 v1 ? ? ?; apply G; lia|exact Ey|reflexivity|]. split; [lia|exact X].
  - assert (Lt : u <= t') by (clear - K; induction K; lia). destruct (G t u ltac:(lia) Lu Lt) as [y Ey]. rewrite E, <- app_assoc in Ey. destruct (IH u t' _ P (x ++ y) K) as [L1 X]; [intros u1 v1 ? ? ?; apply G; lia|exact Ey|reflexivity|]. split; [lia|exact X].
Qed.
Lemma eof_all F a : forall t off t', replies_of F t off (a ++ [EndOfFile]) t' -> length (F t') <= off + length (delivered a).
Proof.
  induction a as [|rp a IH]; intros t off t' H; cbn [app] in H.
  - inversion H as [| |? u ? ? ? Lu Le K|]; subst. inversion K; subst. cbn [delivered length]. lia.
  - inversion H as [|? u ? ? c after ? Lu Sk Nc K|? u ? ? ? Lu Le K|? u ? ? ? Lu K]; subst; apply IH in K; cbn [delivered]; try rewrite app_length; lia.
Qed.
(** A file that only grows while it is read, and no read failing: the lines are those the file had at the moment of the last read. *)
Theorem C75_growing {St} (handle : nat -> str -> St -> St * HErr) F t t' tr st st' e texts :
  (forall u v, t <= u -> u <= v -> v <= t' -> exists added, F v = F u ++ added) -> replies_of F t 0 tr t' -> ~ In ReadError tr -> lines_of_replies handle tr st st' e -> shown (F t') texts ->
  (binary texts /\ st' = st /\ e = LBinary) \/ (~ binary texts /\ st' = handle_all handle 1 texts st /\ e = LNil).
Proof.
  intros G R Ne H T. destruct (grown F tr t t' 0 [] (F t) R G eq_refl eq_refl) as [_ [y E]]. cbn [app] in E. apply (C75_lines handle tr st st' e (F t') texts H); [|exact T]. exists y. split; [exact E|].
  intros [I|I]; [|contradiction]. apply in_split in I. destruct I as [a [b Eb]]. assert (b = []) by (eapply (lines_last handle _ _ _ _ _ _ H); [exact Eb|discriminate]). subst b tr.
  apply eof_all in R. rewrite E, delivered_app in R. cbn [delivered] in R. rewrite app_nil_r, app_length in R. destruct y; [reflexivity|cbn [length] in R; lia].
Qed.
(** If a read fails, the lines before it, and a part of the line it fell into, are shown as if the file ended there; no error is reported. *)
Theorem C75_error_is_silent {St} (handle : nat -> str -> St -> St * HErr) content t t' tr st st' e :
  replies_of (fun _ => content) t 0 tr t' -> In ReadError tr -> lines_of_replies handle tr st st' e ->
  exists k, delivered tr = firstn k content /\ forall texts, shown (firstn k content) texts ->
    (binary texts /\ st' = st /\ e = LBinary) \/ (~ binary texts /\ st' = handle_all handle 1 texts st /\ e = LNil).
Proof.
  intros R I H. destruct (grown (fun _ => content) tr t t' 0 [] content R ltac:(intros; exists []; symmetry; apply app_nil_r) eq_refl eq_refl) as [_ [y E]]. cbn [app] in E. exists (length (delivered tr)).
  assert (X : delivered tr = firstn (length (delivered tr)) content) by (rewrite E, firstn_app, firstn_all, Nat.sub_diag, firstn_O, app_nil_r; reflexivity). split; [exact X|]. rewrite <- X. intros texts T.
  apply (C75_lines handle tr st st' e (delivered tr) texts H); [|exact T]. exists []. split; [symmetry; apply app_nil_r|reflexivity].
Qed.
(** A file that is rewritten in place while it is read (os.Create truncates it, then the new content is written) may be shown with a line it never had. *)
Theorem C75_torn_refuted : exists (F : nat -> str) old new tr t' line,
  F 0 = old /\ F 1 = [] /\ (forall u, 2 <= u -> F u = new) /\ replies_of F 0 0 tr t' /\ ~ In ReadError tr /\
  lines_of_replies (fun n x (st : list (nat * str)) => (st ++ [(n, x)], HNil)) tr [] [(1, line)] LNil /\
  shown old [firstn (64 * 64) old ++ [120%Z]] /\ shown new [firstn (64 * 64) new ++ [121%Z]] /\ line <> firstn (64 * 64) old ++ [120%Z] /\ line <> firstn (64 * 64) new ++ [121%Z].
Proof.
  set (A := repeat 97%Z (64 * 64)). set (B := repeat 98%Z (64 * 64)). set (old := A ++ [120; 10]%Z). set (new := B ++ [121; 10]%Z).
  set (F := fun u => match u with 0 => old | 1 => [] | _ => new end). exists F, old, new, [Chunk A; Chunk [121; 10]%Z; EndOfFile], 2, (A ++ [121%Z]).
  assert (LA : length A = (64 * 64)) by (apply repeat_length). assert (LB : length B = (64 * 64)) by (apply repeat_length).
  assert (NA : forall z, In z A -> z = 97%Z) by (intros z I; exact (repeat_spec _ _ _ I)). assert (NB : forall z, In z B -> z = 98%Z) by (intros z I; exact (repeat_spec _ _ _ I)).
  assert (FA : firstn (64 * 64) old = A) by (unfold old; rewrite firstn_app, LA, Nat.sub_diag, firstn_O, app_nil_r, <- LA; apply firstn_all).
  assert (FB : firstn (64 * 64) new = B) by (unfold new; rewrite firstn_app, LB, Nat.sub_diag, firstn_O, app_nil_r, <- LB; apply firstn_all).
  assert (P4 : 64 * 64 <> 0) by (apply Nat.eqb_neq; vm_compute; reflexivity). clearbody A B. rewrite FA, FB.
  assert (Sh : forall X z, length X = (64 * 64) -> (forall y, In y X -> y = 97%Z \/ y = 98%Z) -> z = 120%Z \/ z = 121%Z -> shown (X ++ [z; 10%Z]) [X ++ [z]]).
  { intros X z Lx Ix Hz. exists [X ++ [z]], [X ++ [z]]. split; [|split].
    - change [z; 10%Z] with ([z] ++ 10%Z :: []). rewrite app_assoc. apply fl_line; [|constructor]. intros I. apply in_app_iff in I. destruct I as [I|[I|[]]]; [apply Ix in I; lia|lia].
    - constructor; [|constructor]. rewrite app_length, Lx. apply Nat.ltb_lt. vm_compute. reflexivity.
    - constructor; [|constructor]. right. split; [reflexivity|]. intros a E. apply app_inj_tail in E. lia. }
  split; [reflexivity|]. split; [reflexivity|]. split; [intros [|[|u]] H; [lia|lia|reflexivity]|]. split; [|split; [|split; [|split; [|split; [|split]]]]].
  - eapply ro_chunk with (u := 0) (after := [120; 10]%Z); [lia|reflexivity|intros E; rewrite E in LA; symmetry in LA; exact (P4 LA)|]. eapply ro_chunk with (u := 2) (after := []); [lia| |discriminate|].
    + cbn [F]. unfold new. rewrite Nat.add_0_l, LA, <- LB, skipn_app, skipn_all, Nat.sub_diag. reflexivity.
    + eapply ro_eof with (u := 2); [lia| |constructor]. cbn [F]. unfold new. rewrite app_length, LA, LB. cbn [length]. lia.
  - intros [E|[E|[E|[]]]]; discriminate.
  - assert (SnA : split_nl A = None) by (apply split_nl_none; intros I; apply NA in I; discriminate).
    assert (SnB : split_nl (A ++ [121; 10]%Z) = Some (A ++ [121%Z], [])).
    { apply split_nl_some. rewrite <- app_assoc. split; [reflexivity|]. intros I. apply in_app_iff in I. destruct I as [I|[I|[]]]; [apply NA in I; discriminate|discriminate]. }
    assert (Dc : dropCR (A ++ [121%Z]) = A ++ [121%Z]) by (unfold dropCR; rewrite rev_app_distr; reflexivity).
    assert (Hs : startBufSize = (64 * 64)) by reflexivity. assert (Hm : maxTokenSize = 256 * 256) by reflexivity.
    set (s2 := {| sused := 64 * 64 + 2; sdata := []; ssize := 64 * 64 * 2; stopped := false |}).
    assert (S1 : scanr newSc [Chunk A; Chunk [121; 10]%Z] (OToken (A ++ [121%Z]) s2)).
    { apply sr_read; [reflexivity|reflexivity|intros _; rewrite Hm; apply Nat.ltb_lt; vm_compute; reflexivity| |].
      - intros c E. injection E as <-. split; [intros E; rewrite E in LA; symmetry in LA; exact (P4 LA)|]. cbn [newSc sused sdata ssize length Nat.add Nat.ltb Nat.leb andb Nat.eqb]. rewrite LA, Hs. apply le_n.
      - cbn [newSc sused sdata ssize length Nat.add Nat.ltb Nat.leb andb Nat.eqb app]. rewrite Hs. apply sr_read; [reflexivity|exact SnA|intros _; cbn [ssize]; rewrite Hm; apply Nat.ltb_lt; vm_compute; reflexivity| |].
        + intros c E. injection E as <-. split; [discriminate|]. cbn [sused sdata ssize Nat.ltb Nat.leb andb]. rewrite LA, Nat.add_0_l, Nat.eqb_refl. apply Nat.leb_le. vm_compute. reflexivity.
        + cbn [sused sdata ssize Nat.ltb Nat.leb andb]. rewrite LA, Nat.add_0_l, Nat.eqb_refl. rewrite <- Dc.
          replace s2 with {| sused := 0 + length (A ++ [121%Z]) + 1; sdata := []; ssize := 64 * 64 * 2; stopped := false |} by (unfold s2; rewrite app_length, LA; reflexivity).
          match goal with |- scanr ?s _ _ => change s with {| sused := 0; sdata := A ++ [121; 10]%Z; ssize := 64 * 64 * 2; stopped := false |} end.
          apply (sr_line {| sused := 0; sdata := A ++ [121; 10]%Z; ssize := 64 * 64 * 2; stopped := false |}); [left; cbn [sdata]; intros E; apply app_eq_nil in E; destruct E; discriminate|exact SnB]. }
    assert (S2 : scanr s2 [EndOfFile] ONoMore).
    { apply sr_read; [reflexivity|reflexivity|intros E; vm_compute in E; discriminate|intros c E; discriminate|]. apply sr_end; reflexivity. }
    change [Chunk A; Chunk [121; 10]%Z; EndOfFile] with ([Chunk A; Chunk [121; 10]%Z] ++ [EndOfFile]). eapply lf_next; [exact S1| |reflexivity|].
    + intros _ I. apply in_app_iff in I. destruct I as [I|[I|[]]]; [apply NA in I; discriminate|discriminate].
    + apply lf_end. exact S2.
  - apply (Sh A 120%Z LA); [intros y I; left; apply NA; exact I|left; reflexivity].
  - apply (Sh B 121%Z LB); [intros y I; right; apply NB; exact I|right; reflexivity].
  - intros E. apply app_inj_tail in E. destruct E. discriminate.
  - intros E. apply app_inj_tail in E. destruct E as [E _]. destruct A as [|a A]; [symmetry in LA; contradiction|]. destruct B as [|b B]; [symmetry in LB; contradiction|]. injection E as E _. rewrite (NA a ltac:(left; reflexivity)), (NB b ltac:(left; reflexivity)) in E. discriminate.
Qed.

(** ** Examples *)
(** A password after an error is not shown, nor is the error. *)
Example C75_silent_case : exists tr e, replies_of (fun _ => lit "user" ++ [10%Z] ++ lit "secret") 0 0 tr 0 /\ In ReadError tr /\
  lines_of_replies (fun n x (st : list (nat * str)) => (st ++ [(n, x)], HNil)) tr [] [(1, lit "user"); (2, lit "se")] e /\ e = LNil.
Proof.
  exists [Chunk (lit "user" ++ [10%Z] ++ lit "se"); ReadError], LNil. split; [|split; [right; left; reflexivity|split; [|reflexivity]]].
  - eapply ro_chunk with (u := 0) (after := lit "cret"); [lia|reflexivity|discriminate|]. eapply ro_error with (u := 0); [lia|constructor].
  -     change [Chunk (lit "user" ++ [10%Z] ++ lit "se"); ReadError] with ([Chunk (lit "user" ++ [10%Z] ++ lit "se")] ++ [ReadError] ++ []).
    eapply lf_next with (text := lit "user"); [|cbn; intros _ I; repeat (destruct I as [I|I]; [discriminate|]); exact I|reflexivity|].
    + apply sr_read; [reflexivity|reflexivity|intros _; apply Nat.ltb_lt; vm_compute; reflexivity| |].
      * intros c E. injection E as <-. split; [discriminate|]. apply Nat.leb_le. vm_compute. reflexivity.
      * cbn [newSc sused sdata ssize length Nat.add Nat.ltb Nat.leb andb Nat.eqb app]. change (lit "user") with (dropCR (lit "user")) at 2; apply (sr_line _ (lit "user") (lit "se")); [left; discriminate|reflexivity].
    + eapply lf_next with (text := lit "se"); [|discriminate|reflexivity|].
      * apply sr_read; [reflexivity|reflexivity|intros E; vm_compute in E; discriminate|intros c E; discriminate|]. change (lit "se") with (dropCR (lit "se")) at 2; apply sr_last; [reflexivity|discriminate|reflexivity].
      * apply lf_end. apply sr_end; reflexivity.
Qed.

Print Assumptions C75_lines.
Print Assumptions C75_search.
Print Assumptions C75_total.
Print Assumptions C75_growing.
Print Assumptions C75_error_is_silent.
Print Assumptions C75_torn_refuted.
