(** * Proofs about line reading: every chunking of the reads yields the same lines. *)
From Coq Require Import ZArith Arith List Bool Lia.
From Verif Require Import GoStr FsModel RepoModel RepoSpec.
Import ListNotations.
Open Scope nat_scope.

Lemma split_nl_some s a b : split_nl s = Some (a, b) <-> s = a ++ nlb :: b /\ ~ In nlb a.
Proof.
  revert a b. induction s as [|c s IH]; intros a b; cbn [split_nl].
  - split; [discriminate|]. intros [E _]. destruct a; discriminate.
  - destruct (Z.eqb_spec c nlb) as [->|N].
    + split; [intros E; injection E as <- <-; split; [reflexivity|intros []]|]. intros [E H]. destruct a as [|x a]; cbn in E; injection E; intros; subst; [reflexivity|]. exfalso. apply H. left. reflexivity.
    + destruct (split_nl s) as [[a' b']|].
      * split.
        -- intros E. injection E as <- <-. destruct (proj1 (IH a' b') eq_refl) as [-> H]. split; [reflexivity|]. intros [I|I]; [congruence|exact (H I)].
        -- intros [E H]. destruct a as [|x a]; cbn in E; injection E; intros; subst; [contradiction|].
           assert (X : Some (a', b') = Some (a, b)) by (apply IH; split; [reflexivity|intros I; apply H; right; exact I]). injection X as -> ->. reflexivity.
      * split; [discriminate|]. intros [E H]. exfalso. destruct a as [|x a]; cbn in E; injection E; intros; subst; [contradiction|].
        assert (X : None = Some (a, b)) by (apply IH; split; [reflexivity|intros I; apply H; right; exact I]). discriminate.
Qed.
Lemma split_nl_none s : split_nl s = None <-> ~ In nlb s.
Proof.
  split.
  - intros E I. apply in_split in I. destruct I as [a [b ->]]. induction a as [|c a IH]; cbn in E; [discriminate|]. destruct (c =? nlb)%Z; [discriminate|]. apply IH. destruct (split_nl _) as [[? ?]|]; [discriminate|reflexivity].
  - intros N. destruct (split_nl s) as [[a b]|] eqn:E; [|reflexivity]. apply split_nl_some in E. destruct E as [-> _]. exfalso. apply N. apply in_or_app. right. left. reflexivity.
Qed.
Lemma dropCR_text l : text_of l (dropCR l).
Proof.
  unfold text_of, dropCR. destruct (rev l) as [|c t] eqn:E.
  - right. split; [reflexivity|]. intros a H. subst l. rewrite rev_app_distr in E. discriminate.
  - assert (El : l = rev t ++ [c]) by (rewrite <- (rev_involutive l), E; reflexivity). destruct (Z.eqb_spec c crb) as [->|N].
    + left. exact El.
    + right. split; [reflexivity|]. intros a H. subst l. apply app_inj_tail in H. destruct H as [_ H]. exact (N H).
Qed.
Lemma text_of_unique l t t' : text_of l t -> text_of l t' -> t = t'.
Proof.
  intros [H|[H1 H2]] [H'|[H1' H2']]; subst.
  - apply app_inj_tail in H'. destruct H'. congruence.
  - exfalso. exact (H2' t eq_refl).
  - exfalso. exact (H2 t' eq_refl).
  - reflexivity.
Qed.

(** ** One Scan *)
Record sinv (s : Scanner) : Prop := {
  si_eof : eof s = true -> rest s = [] /\ length (data s) < maxTokenSize;
  si_size : used s + length (data s) <= size s;
  si_max : size s <= maxTokenSize }.
Definition pending (s : Scanner) : str := data s ++ rest s.
(** The first line of what is pending, and what follows. *)
Definition next_line (p l r : str) : Prop := ~ In nlb l /\ (p = l ++ nlb :: r \/ (p = l /\ l <> [] /\ r = [])).
Lemma sinv_new c : sinv (newScanner c).
Proof. constructor; cbn [newScanner eof used data size length Nat.add]; [discriminate|apply le_n|apply Nat.le_0_l]. Qed.
Lemma max_def : maxTokenSize = 256 * 256. Proof. reflexivity. Qed.
Lemma max_pos : 0 < maxTokenSize. Proof. rewrite max_def. apply Nat.mul_pos_pos; lia. Qed.
Lemma start_le : 0 < startBufSize <= maxTokenSize. Proof. rewrite max_def. unfold startBufSize. split; [apply Nat.mul_pos_pos; lia|apply Nat.mul_le_mono; lia]. Qed.
Opaque maxTokenSize startBufSize.
Lemma after_read_inv s (k : nat) (used' := if (0 <? used s) && ((used s + length (data s) =? size s) || (size s / 2 <? used s)) then 0 else used s)
  (full := used' + length (data s) =? size s) (size' := if full then (if size s =? 0 then startBufSize else Nat.min (size s * 2) maxTokenSize) else size s) (used'' := if full then 0 else used') :
  sinv s -> (full = true -> size s < maxTokenSize) ->
  size' <= maxTokenSize /\ used'' + length (data s) < size'.
Proof.
  intros [_ H1 H2] F. pose proof start_le as SL.
  assert (U : used' + length (data s) <= size s) by (unfold used'; destruct ((0 <? used s) && _); lia).
  unfold size', used''. fold full. destruct full eqn:E.
  - specialize (F eq_refl). unfold full in E. apply Nat.eqb_eq in E. destruct (Nat.eqb_spec (size s) 0); split; try lia.
  - unfold full in E. apply Nat.eqb_neq in E. lia.
Qed.
Lemma scan1_spec s o : scan1 s o -> sinv s ->
  match o with
  | Token t s' => sinv s' /\ exists l, next_line (pending s) l (pending s') /\ length l < maxTokenSize /\ t = dropCR l
  | NoMore => pending s = [] \/ (maxTokenSize <= length (pending s) /\ ~ In nlb (firstn maxTokenSize (pending s)))
  end.
Proof.
  induction 1 as [s a b H1 H2|s H1 H2 H3|s H1 H2|s H1 H2 used' H3 H4|s k o H1 H2 used' full H3 size' used'' H4 H5 H6 IH]; intros I.
  - apply split_nl_some in H2. destruct H2 as [E N]. destruct I as [I1 I2 I3]. rewrite E in I1, I2. rewrite app_length in I1, I2. cbn [length] in I1, I2. split.
    + constructor; cbn [used data size rest eof]; [|lia|exact I3]. intros X. apply I1 in X. split; [tauto|lia].
    + exists a. unfold next_line, pending. cbn [data rest]. rewrite E. split; [split; [exact N|left; rewrite <- app_assoc; reflexivity]|]. split; [lia|reflexivity].
  - destruct I as [I1 I2 I3]. destruct (I1 H1) as [R L]. split.
    + constructor; cbn [used data size rest eof length]; [|lia|exact I3]. intros _. split; [exact R|apply max_pos].
    + exists (data s). unfold next_line, pending. cbn [data rest]. rewrite R. rewrite app_nil_r. split; [split; [apply split_nl_none; exact H3|right; auto]|]. split; [exact L|reflexivity].
  - left. unfold pending. destruct I as [I1 _ _]. rewrite H2. destruct (I1 H1) as [-> _]. reflexivity.
  - right. assert (E : length (data s) = maxTokenSize).
    { destruct I as [_ I2 I3]. unfold used' in *. clear used'. revert H3. destruct (Nat.ltb_spec 0 (used s)); cbn [andb]; [|lia].
      destruct (Nat.eqb_spec (used s + length (data s)) (size s)); cbn [orb]; [lia|]. destruct (size s / 2 <? used s); lia. }
    unfold pending. rewrite app_length, firstn_app, E, Nat.sub_diag. cbn [firstn]. rewrite app_nil_r, <- E, firstn_all. split; [lia|]. apply split_nl_none. exact H2.
  - set (s1 := {| used := used''; data := data s ++ firstn k (rest s); size := size'; rest := skipn k (rest s); eof := match rest s with [] => true | _ => false end |}) in *.
    destruct (after_read_inv s 0 I H3) as [Smax Sfree]. fold used' full size' used'' in Smax, Sfree.
    assert (P1 : pending s1 = pending s). { unfold pending, s1. cbn [data rest]. rewrite <- app_assoc, firstn_skipn. reflexivity. }
    assert (I1 : sinv s1).
    { constructor; unfold s1; cbn [used data size rest eof].
      - intros X. destruct (rest s) as [|c r] eqn:Er; [|discriminate]. rewrite (H5 eq_refl). cbn [firstn skipn]. rewrite app_nil_r. split; [reflexivity|lia].
      - rewrite app_length, firstn_length. destruct (rest s) as [|c r] eqn:Er; [cbn [length]; lia|]. destruct (H4 ltac:(discriminate)). lia.
      - exact Smax. }
    rewrite <- P1. exact (IH I1).
Qed.
Lemma scan1_total : forall n s, length (rest s) <= n -> sinv s -> exists o, scan1 s o.
Proof.
  assert (Base : forall s, eof s = true -> exists o, scan1 s o).
  { intros s E. destruct (data s) as [|c d] eqn:D; [eexists; apply sc_end; assumption|]. destruct (split_nl (data s)) as [[a b]|] eqn:N.
    - eexists. eapply sc_line; [right; exact E|exact N].
    - eexists. apply sc_last; [exact E|rewrite D; discriminate|exact N]. }
  induction n as [|n IH]; intros s L I; destruct (eof s) eqn:E; try (apply Base; exact E);
    (destruct (split_nl (data s)) as [[a b]|] eqn:N; [eexists; eapply sc_line; [left; intros D; rewrite D in N; discriminate|exact N]|]).
  - assert (R : rest s = []) by (destruct (rest s); [reflexivity|cbn in L; lia]).
    set (used' := if (0 <? used s) && ((used s + length (data s) =? size s) || (size s / 2 <? used s)) then 0 else used s).
    destruct (Nat.eq_dec (used' + length (data s)) (size s)) as [F|F].
    + destruct (le_lt_dec maxTokenSize (size s)) as [M|M]; [eexists; apply sc_long; assumption|].
      match type of I with _ => edestruct Base as [o O] end; [|exists o; eapply (sc_read s 0 o E N); [intros _; exact M|intros X; contradiction|reflexivity|exact O]]. cbn [eof]. rewrite R. reflexivity.
    + edestruct Base as [o O]; [|exists o; eapply (sc_read s 0 o E N); [intros X; apply Nat.eqb_eq in X; contradiction|intros X; contradiction|reflexivity|exact O]]. cbn [eof]. rewrite R. reflexivity.
  - set (used' := if (0 <? used s) && ((used s + length (data s) =? size s) || (size s / 2 <? used s)) then 0 else used s).
    destruct (Nat.eq_dec (used' + length (data s)) (size s)) as [F|F].
    + destruct (le_lt_dec maxTokenSize (size s)) as [M|M]; [eexists; apply sc_long; assumption|].
      assert (FF : (used' + length (data s) =? size s) = true -> size s < maxTokenSize) by (intros _; exact M).
      destruct (after_read_inv s 0 I FF) as [Smax Sfree]. cbv zeta in Smax, Sfree. fold used' in Smax, Sfree.
      destruct (rest s) as [|c r] eqn:R.
      * edestruct Base as [o O]; [|exists o; eapply (sc_read s 0 o E N); [exact FF|intros X; congruence|reflexivity|exact O]]. cbn [eof]. rewrite R. reflexivity.
      * assert (I1 := I). edestruct (IH {| used := if used' + length (data s) =? size s then 0 else used'; data := data s ++ firstn 1 (rest s); size := if used' + length (data s) =? size s then (if size s =? 0 then startBufSize else Nat.min (size s * 2) maxTokenSize) else size s; rest := skipn 1 (rest s); eof := match rest s with [] => true | _ => false end |}) as [o O].
        -- cbn [rest]. rewrite R. cbn [skipn]. cbn [length] in L. lia.
        -- constructor; cbn [used data size rest eof]; rewrite ?R; [discriminate|rewrite app_length; cbn [firstn length]; lia|exact Smax].
        -- exists o. apply (sc_read s 1 o E N); [exact FF|intros _; rewrite R; cbn [length]; fold used'; split; [lia|]; lia|intros X; congruence|exact O].
    + assert (FF : (used' + length (data s) =? size s) = true -> size s < maxTokenSize) by (intros X; apply Nat.eqb_eq in X; contradiction).
      destruct (after_read_inv s 0 I FF) as [Smax Sfree]. cbv zeta in Smax, Sfree. fold used' in Smax, Sfree.
      destruct (rest s) as [|c r] eqn:R.
      * edestruct Base as [o O]; [|exists o; eapply (sc_read s 0 o E N); [exact FF|intros X; congruence|reflexivity|exact O]]. cbn [eof]. rewrite R. reflexivity.
      * edestruct (IH {| used := if used' + length (data s) =? size s then 0 else used'; data := data s ++ firstn 1 (rest s); size := if used' + length (data s) =? size s then (if size s =? 0 then startBufSize else Nat.min (size s * 2) maxTokenSize) else size s; rest := skipn 1 (rest s); eof := match rest s with [] => true | _ => false end |}) as [o O].
        -- cbn [rest]. rewrite R. cbn [skipn]. cbn [length] in L. lia.
        -- constructor; cbn [used data size rest eof]; rewrite ?R; [discriminate|rewrite app_length; cbn [firstn length]; lia|exact Smax].
        -- exists o. apply (sc_read s 1 o E N); [exact FF|intros _; rewrite R; cbn [length]; fold used'; split; [lia|]; lia|intros X; congruence|exact O].
Qed.

(** ** All lines *)
Lemma file_lines_exists : forall n p, length p <= n -> exists ls, file_lines p ls.
Proof.
  induction n as [|n IH]; intros p L; [destruct p; [exists []; constructor|cbn in L; lia]|]. destruct (split_nl p) as [[a b]|] eqn:E.
  - apply split_nl_some in E. destruct E as [-> N]. rewrite app_length in L. cbn [length] in L. destruct (IH b ltac:(lia)) as [ls H]. exists (a :: ls). constructor; assumption.
  - apply split_nl_none in E. destruct p as [|c p]; [exists []; constructor|]. exists [c :: p]. constructor; [discriminate|exact E].
Qed.
Lemma app_nl_inj a b a' b' : ~ In nlb a -> ~ In nlb a' -> a ++ nlb :: b = a' ++ nlb :: b' -> a = a' /\ b = b'.
Proof.
  intros N N' E. assert (X : split_nl (a ++ nlb :: b) = Some (a, b)) by (apply split_nl_some; auto). assert (X' : split_nl (a ++ nlb :: b) = Some (a', b')) by (apply split_nl_some; auto). rewrite X in X'. injection X' as -> ->. auto.
Qed.
Lemma file_lines_next p l r ls : next_line p l r -> file_lines p ls -> exists ls', ls = l :: ls' /\ file_lines r ls'.
Proof.
  intros [N [->|[-> [NE ->]]]] F; inversion F as [X|l0 H1 H2 X|l0 rest0 ls0 H1 H2 X]; subst.
  - destruct l; discriminate.
  - exfalso. apply H2. apply in_or_app. right. left. reflexivity.
  - apply app_nl_inj in X; [|assumption|assumption]. destruct X as [-> ->]. exists ls0. auto.
  - contradiction.
  - exists []. split; [reflexivity|constructor].
  - exfalso. apply N. apply in_or_app. right. left. reflexivity.
Qed.
Lemma file_lines_unique p ls ls' : file_lines p ls -> file_lines p ls' -> ls = ls'.
Proof.
  intros H. revert ls'. induction H as [|l NE N|l r ls N F IH]; intros ls' H'.
  - inversion H'; subst; [reflexivity|contradiction|destruct l; discriminate].
  - destruct (file_lines_next l l [] ls') as [ls2 [-> F2]]; [split; [exact N|right; auto]|exact H'|]. inversion F2; subst; [reflexivity|contradiction|destruct l0; discriminate].
  - destruct (file_lines_next _ l r ls' ltac:(split; [exact N|left; reflexivity]) H') as [ls2 [-> F2]]. f_equal. apply IH. exact F2.
Qed.
Lemma readable_exists ls : exists vs, readable ls vs.
Proof. induction ls as [|l ls [vs IH]]; [exists []; constructor|]. destruct (le_lt_dec (256 * 256) (length l)); [exists []; constructor; assumption|exists (l :: vs); constructor; assumption]. Qed.
Lemma readable_unique ls vs vs' : readable ls vs -> readable ls vs' -> vs = vs'.
Proof.
  intros H. revert vs'. induction H as [|l ls L|l ls vs L R IH]; intros vs' H'; inversion H'; subst; try reflexivity; try (exfalso; lia). f_equal. apply IH. assumption.
Qed.
Lemma texts_exists vs : Forall2 text_of vs (map dropCR vs).
Proof. induction vs; constructor; [apply dropCR_text|assumption]. Qed.
Lemma shown_exists p : exists ts, shown p ts.
Proof.
  destruct (file_lines_exists (length p) p (le_n _)) as [ls H]. destruct (readable_exists ls) as [vs R]. exists (map dropCR vs), ls, vs. split; [exact H|]. split; [exact R|apply texts_exists].
Qed.
Lemma shown_unique p ts ts' : shown p ts -> shown p ts' -> ts = ts'.
Proof.
  intros [ls [vs [H1 [H2 H3]]]] [ls' [vs' [H1' [H2' H3']]]]. rewrite (file_lines_unique _ _ _ H1' H1) in H2'. rewrite (readable_unique _ _ _ H2' H2) in H3'. clear -H3 H3'.
  revert ts' H3'. induction H3 as [|v t vs ts T F IH]; intros ts' H; inversion H; subst; [reflexivity|]. f_equal; [eapply text_of_unique; eassumption|apply IH; assumption].
Qed.
Lemma shown_step s t s' ts : sinv s -> scan1 s (Token t s') -> shown (pending s) ts -> sinv s' /\ exists ts', ts = t :: ts' /\ shown (pending s') ts'.
Proof.
  intros I SC [ls [vs [H1 [H2 H3]]]]. destruct (scan1_spec _ _ SC I) as [I' [l [NL [L ->]]]]. split; [exact I'|].
  destruct (file_lines_next _ _ _ _ NL H1) as [ls' [-> F]]. inversion H2 as [|? ? X|? ? vs' X R]; subst; [rewrite max_def in L; exfalso; lia|]. inversion H3 as [|? t' ? ts' T F2]; subst.
  exists ts'. split; [f_equal; eapply text_of_unique; [exact T|apply dropCR_text]|]. exists ls', vs'. auto.
Qed.
Lemma file_lines_long p ls : file_lines p ls -> maxTokenSize <= length p -> ~ In nlb (firstn maxTokenSize p) -> exists l ls', ls = l :: ls' /\ maxTokenSize <= length l.
Proof.
  intros H L N. pose proof max_pos. inversion H as [E|l0 H1 H2 E|l0 rest0 ls0 H1 H2 E]; subst; [cbn in L; lia|exists p, []; auto|].
  exists l0, ls0. split; [reflexivity|]. destruct (le_lt_dec maxTokenSize (length l0)) as [|Lt]; [assumption|exfalso]. apply N. rewrite firstn_app. apply in_or_app. right.
  replace (maxTokenSize - length l0) with (S (maxTokenSize - length l0 - 1)) by lia. left. reflexivity.
Qed.
Lemma shown_end s ts : sinv s -> scan1 s NoMore -> shown (pending s) ts -> ts = [].
Proof.
  intros I SC [ls [vs [H1 [H2 H3]]]]. destruct (scan1_spec _ _ SC I) as [E|[L N]].
  - rewrite E in H1. inversion H1; subst; [inversion H2; subst; inversion H3; reflexivity|contradiction|]. destruct l; discriminate.
  - destruct (file_lines_long _ _ H1 L N) as [l [ls' [-> Ll]]]. rewrite max_def in Ll. inversion H2; subst; [inversion H3; reflexivity|exfalso; lia].
Qed.
Section Lines.
  Context {St : Type}.
  Variable handle : nat -> str -> St -> St * HErr.
  (** The handler applied to successive texts until it stops. *)
  Fixpoint handle_all (n : nat) (ts : list str) (st : St) : St :=
    match ts with
    | [] => st
    | t :: r => match handle n t st with (st', HNil) => handle_all (S n) r st' | (st', _) => st' end
    end.
  Lemma read_lines_spec s line st st' e : read_lines handle s line st st' e -> 1 <= line -> sinv s -> forall ts, shown (pending s) ts ->
    ((line = 1 /\ binary ts) /\ st' = st /\ e = LBinary) \/ (~ (line = 1 /\ binary ts) /\ st' = handle_all line ts st /\ e = LNil).
  Proof.
    induction 1 as [s line st SC|s s' text st SC B|s s' line text st st' h SC B Hh Hn|s s' line text st st' st'' e SC B Hh R IH]; intros L1 I ts T.
    - rewrite (shown_end s ts I SC T). right. cbn. tauto.
    - destruct (shown_step s text s' ts I SC T) as [I' [ts' [-> T']]]. left. auto.
    - destruct (shown_step s text s' ts I SC T) as [I' [ts' [-> T']]]. right. cbn [binary handle_all]. rewrite Hh. split; [intros [X1 X2]; exact (B X1 X2)|]. destruct h; [contradiction|auto|auto].
    - destruct (shown_step s text s' ts I SC T) as [I' [ts' [-> T']]]. destruct (IH ltac:(lia) I' ts' T') as [[[E _] _]|[_ [-> ->]]]; [lia|].
      right. cbn [binary handle_all]. rewrite Hh. split; [intros [X1 X2]; exact (B X1 X2)|auto].
  Qed.
  Lemma read_lines_total : forall n s line st, length (pending s) <= n -> sinv s -> exists st' e, read_lines handle s line st st' e.
  Proof.
    induction n as [|n IH]; intros s line st L I; destruct (scan1_total (length (rest s)) s (le_n _) I) as [[t s'|] SC]; try (exists st, LNil; apply rl_end; exact SC).
    - exfalso. destruct (scan1_spec _ _ SC I) as [_ [l [[_ [E|[E [NE _]]]] _]]]; rewrite E in L; [rewrite app_length in L; cbn [length] in L; lia|destruct l; [contradiction|cbn in L; lia]].
    - destruct (scan1_spec _ _ SC I) as [I' [l [[_ H] _]]].
      assert (L' : length (pending s') <= n) by (destruct H as [E|[E [NE E2]]]; [rewrite E, app_length in L; cbn [length] in L; lia|rewrite E2; cbn; lia]).
      destruct (in_dec Z.eq_dec 0%Z t) as [B|B]; [destruct (Nat.eq_dec line 1) as [->|N1]; [exists st, LBinary; eapply rl_binary; eassumption|]|].
      1: assert (HB : line = 1 -> ~ In 0%Z t) by (intros X; contradiction). 2: assert (HB : line = 1 -> ~ In 0%Z t) by (intros _; exact B).
      all: destruct (handle line t st) as [st1 h] eqn:Hh; destruct h;
        [destruct (IH s' (S line) st1 L' I') as [st' [e R]]; exists st', e; eapply rl_next; eassumption
        |exists st1, LNil; eapply rl_stop; [exact SC|exact HB|exact Hh|discriminate]|exists st1, LNil; eapply rl_stop; [exact SC|exact HB|exact Hh|discriminate]].
  Qed.
  Lemma get_spec w f st st' e content : open_read w f = Some content -> GetFileContentByLine handle w f st st' e -> forall ts, shown content ts ->
    (binary ts /\ st' = st /\ e = LBinary) \/ (~ binary ts /\ st' = handle_all 1 ts st /\ e = LNil).
  Proof.
    intros O G ts T. inversion G as [X|c st1 e1 X R]; subst; rewrite O in X; [discriminate|]. injection X as <-.
    destruct (read_lines_spec _ _ _ _ _ R (le_n _) (sinv_new content) ts T) as [[[_ H1] H2]|[H1 H2]]; [left; auto|right]. split; [|exact H2]. intros B. apply H1. auto.
  Qed.
  Lemma get_total w f st : exists st' e, GetFileContentByLine handle w f st st' e.
  Proof.
    destruct (open_read w f) as [c|] eqn:E; [|exists st, LOpen; apply gf_open; exact E].
    destruct (read_lines_total (length (pending (newScanner c))) (newScanner c) 1 st (le_n _) (sinv_new c)) as [st' [e R]]. exists st', e. eapply gf_read; eassumption.
  Qed.
End Lines.

Lemma search_all p : forall ts n acc, handle_all (search_handler (yes_no p)) n ts acc = acc ++ filter (fun e => p (snd e)) (numbered n ts).
Proof.
  induction ts as [|t ts IH]; intros n acc; cbn [handle_all numbered filter snd]; [rewrite app_nil_r; reflexivity|]. unfold search_handler, yes_no. destruct (p t); fold (yes_no p); fold (search_handler (yes_no p)).
  - rewrite IH, <- app_assoc. reflexivity.
  - apply IH.
Qed.
