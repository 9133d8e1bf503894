(** * C35, C36, C38-C40, C52, C53: the commands. *)
From Coq Require Import String.
From Coq Require Import ZArith NArith Arith List Bool Lia Permutation Sorting.
From Verif Require Import Utf8 GoStr FsModel CmModel CmSpec CmProofs CmIndex CmProps RepoModel RepoSpec FsProofs RepoLines RepoScan RepoProps
  Gf256Spec QrModel QrSpec QrProps TermModel TermSpec TermProps CmdModel CmdSpec CmdProofs.
Import ListNotations.
Open Scope nat_scope.

(** ** C35 and C52: show *)
Lemma last_cons {A} (x : A) l d : last (x :: l) d = last l x.
Proof. revert x. induction l as [|y l IH]; intros x; [reflexivity|]. change (last (x :: y :: l) d) with (last (y :: l) d). rewrite IH. change (last (y :: l) x) with (last (y :: l) x). rewrite <- (IH y). clear. revert y. induction l as [|z l IH]; intros y; [reflexivity|]. exact (IH z). Qed.
Lemma handle_show a : forall texts n out qr full,
  handle_all (show_handler a) n texts (out, qr, full) =
   (out ++ (if LineNumbers a then numbered_lines (numbered n texts) else if (0 <? Line a)%Z then
       match (if (Z.of_nat n <=? Line a)%Z then nth_error texts (Z.to_nat (Line a) - n) else None) with Some t => line_of t | None => [] end else lines_of texts),
    last (map snd (filter (fun e => QrCode a && ((Z.of_nat (fst e) =? Line a)%Z || (negb (eqs (Field a) []) && HasPrefix (snd e) (Field a)))) (numbered n texts))) qr,
    full ++ (if QrCode a then concat (map (fun t => lit " / " ++ t) texts) else [])).
Proof.
  induction texts as [|t ts IH]; intros n out qr full.
  - cbn [handle_all numbered filter map last concat]. unfold numbered_lines, lines_of. cbn [map concat].
    assert (N : forall k, nth_error (@nil str) k = None) by (intros [|k]; reflexivity). rewrite N.
    destruct (LineNumbers a), (0 <? Line a)%Z, (Z.of_nat n <=? Line a)%Z, (QrCode a); rewrite !app_nil_r; reflexivity.
  - cbn [handle_all]. unfold show_handler at 1. cbv beta iota zeta. rewrite IH. cbn [numbered filter map last concat fst snd].
    f_equal; [f_equal|].
    + destruct (LineNumbers a).
      * unfold numbered_lines. cbn [map concat]. unfold numbered_line at 2, dec, decimal, nl, eol. cbn [fst snd]. rewrite <- !app_assoc. reflexivity.
      * destruct (Z.ltb_spec 0 (Line a)) as [Lp|Lp].
        -- destruct (Z.eqb_spec (Line a) (Z.of_nat n)) as [E|E].
           ++ rewrite E. destruct (Z.leb_spec (Z.of_nat (S n)) (Z.of_nat n)); [lia|]. destruct (Z.leb_spec (Z.of_nat n) (Z.of_nat n)); [|lia]. rewrite app_nil_r, Nat2Z.id, Nat.sub_diag. reflexivity.
           ++ destruct (Z.leb_spec (Z.of_nat (S n)) (Line a)), (Z.leb_spec (Z.of_nat n) (Line a)); try lia; [|reflexivity].
              replace (Z.to_nat (Line a) - n) with (S (Z.to_nat (Line a) - S n)) by lia. reflexivity.
        -- unfold lines_of. cbn [map concat]. unfold line_of, nl, eol. rewrite <- !app_assoc. reflexivity.
    + destruct (QrCode a); cbn [andb]; [|reflexivity].
      destruct (Z.of_nat n =? Line a)%Z; cbn [orb]; destruct (negb (eqs (Field a) []) && HasPrefix t (Field a)); cbn [map snd]; rewrite ?last_cons; reflexivity.
    + destruct (QrCode a); [rewrite <- !app_assoc; reflexivity|reflexivity].
Qed.
Lemma trip {A B C} (a a' : A) (b b' : B) (c c' : C) : (a, b, c) = (a', b', c') -> a = a' /\ b = b' /\ c = c'.
Proof. intros E. injection E. auto. Qed.
Lemma error_binary : error_line LBinary = lit "Error: cannot show binary file" ++ eol. Proof. reflexivity. Qed.
(** show with a name, in general. *)
Lemma show_run lower w env groot a o es ws : lower [] = [] -> store_at w (root_of env groot) es -> all_entries es ws -> CmSpec.fits ws -> ShowName a <> [] ->
  Show lower w env groot a o ->
  (exists f content texts, best_match lower ws (ShowName a) f /\ entry_content es f content /\ shown content texts /\
     ((binary texts /\ o = show_end a ((lit "Pass '" ++ f ++ lit "'" ++ eol ++ eol) ++ lit "Error: cannot show binary file" ++ eol, [], [])) \/
      (~ binary texts /\ o = show_end a ((lit "Pass '" ++ f ++ lit "'" ++ eol ++ eol) ++ show_body (LineNumbers a) (Line a) texts,
          if QrCode a then qr_selected (Line a) (Field a) texts else [], if QrCode a then concat (map (fun t => lit " / " ++ t) texts) else []))))
  \/ (no_match lower ws (ShowName a) /\ o = show_end a ([], [], [])).
Proof.
  intros Ll ST AE F NE H. destruct (scan_store _ _ _ ST) as [fs [SC [H1 [_ _]]]]. unfold Show, after_scan in H. rewrite SC in H.
  destruct (eqs (ShowName a) []) eqn:E; [apply eqs_iff in E; contradiction|]. destruct H as [order [O [cm [A H]]]]. specialize (H1 order O).
  assert (P : Permutation order ws) by (eapply all_entries_perm; eassumption).
  destruct H as [[C _]|[f [C H]]]; [exfalso; exact (no_crash lower order cm (ShowName a) Ll A (fits_perm _ _ (Permutation_sym P) F) NE C)|].
  destruct (closest_best lower order ws cm _ _ P A F C) as [B|[-> N]]; [|right; auto]. left.
  destruct (entry_file2 _ _ _ f ST ltac:(apply AE; apply B)) as [Nf [content [EC [LK OR]]]]. destruct f as [|c f]; [contradiction|]. rewrite LK in H.
  destruct H as [out [qr [fq [e [G ->]]]]]. destruct (shown_exists content) as [texts T]. exists (c :: f), content, texts. split; [exact B|]. split; [exact EC|]. split; [exact T|].
  destruct (get_spec _ _ _ _ _ _ _ OR G texts T) as [[Bi [E1 ->]]|[Bi [E1 ->]]]; [left|right]; (split; [exact Bi|]).
  - apply trip in E1. destruct E1 as [-> [-> ->]]. rewrite error_binary. reflexivity.
  - rewrite handle_show in E1. apply trip in E1. destruct E1 as [-> [-> ->]]. change (error_line LNil) with (@nil Z). rewrite app_nil_r. unfold show_body, qr_selected.
    match goal with |- show_end a (?x, ?y, ?z) = show_end a (?x', ?y', ?z') => assert (Ex : x = x'); [|assert (Ey : y = y'); [|rewrite Ex, Ey; reflexivity]] end.
    + unfold nl, eol. f_equal. destruct (LineNumbers a); [reflexivity|]. destruct (Z.ltb_spec 0 (Line a)); [|reflexivity]. destruct (Z.leb_spec (Z.of_nat 1) (Line a)); [reflexivity|lia].
    + destruct (QrCode a); [reflexivity|]. cbn [andb]. assert (X : forall l : list (nat * str), filter (fun _ => false) l = []) by (induction l; [reflexivity|assumption]). rewrite X. reflexivity.
Qed.
(** show without -q prints the name and the lines of a best matching entry (numbered with -l, only line n with -i n, an error text
    if the file is binary), and nothing if no entry shares a two-byte substring with the name. *)
Theorem C35_show_prints_best_entry lower w env groot root es ws a o : lower [] = [] ->
  ExpandEnv (getenv env) groot = root -> store_at w root es -> all_entries es ws -> CmSpec.fits ws -> ShowName a <> [] -> QrCode a = false ->
  Show lower w env groot a o ->
  (exists f content texts, best_match lower ws (ShowName a) f /\ entry_content es f content /\ shown content texts /\
     ((binary texts /\ o = Done (lit "Pass '" ++ f ++ lit "'" ++ eol ++ eol ++ lit "Error: cannot show binary file" ++ eol) [] ENil) \/
      (~ binary texts /\ o = Done (lit "Pass '" ++ f ++ lit "'" ++ eol ++ eol ++ show_body (LineNumbers a) (Line a) texts) [] ENil)))
  \/ (no_match lower ws (ShowName a) /\ o = Done [] [] ENil).
Proof.
  intros Ll <- ST AE F NE Q H. destruct (show_run lower w env groot a o es ws Ll ST AE F NE H) as [[f [c [ts [B [EC [T [[Bi ->]|[Bi ->]]]]]]]]|[N ->]].
  - left. exists f, c, ts. split; [exact B|]. split; [exact EC|]. split; [exact T|]. left. split; [exact Bi|]. unfold show_end, qr_text. rewrite Q. rewrite <- !app_assoc. reflexivity.
  - left. exists f, c, ts. split; [exact B|]. split; [exact EC|]. split; [exact T|]. right. split; [exact Bi|]. unfold show_end, qr_text. rewrite Q. rewrite <- !app_assoc. reflexivity.
  - right. split; [exact N|]. unfold show_end, qr_text. rewrite Q. reflexivity.
Qed.
(** Every such call ends, without crashing. *)
Lemma closest_total cm q : ~ crashes cm q -> exists res, Closest cm q res.
Proof. intros N. destruct (C27_answers cm q 1 N) as [l C]. exists (match l with [] => [] | k :: _ => k end). apply C27_Closest_first. exists l. auto. Qed.
Theorem C35_show_ends lower w env groot root es ws a : lower [] = [] ->
  ExpandEnv (getenv env) groot = root -> store_at w root es -> all_entries es ws -> CmSpec.fits ws -> ShowName a <> [] ->
  exists o, Show lower w env groot a o.
Proof.
  intros Ll <- ST AE F NE. destruct (scan_store _ _ _ ST) as [fs [SC [H1 _]]]. unfold Show, after_scan, root_of. rewrite SC. rewrite (eqs_false _ _ NE).
  destruct (New_exists lower (concat (map snd fs)) [2]) as [cm A]. specialize (H1 _ (in_order_exists fs)). assert (P := all_entries_perm _ _ _ H1 AE).
  destruct (closest_total cm (ShowName a)) as [f C]; [exact (no_crash lower _ cm _ Ll A (fits_perm _ _ (Permutation_sym P) F) NE)|].
  destruct f as [|c f].
  - eexists. exists (concat (map snd fs)). split; [apply in_order_exists|]. exists cm. split; [exact A|]. right. exists []. split; [exact C|reflexivity].
  - destruct (lookup w (Join (ExpandEnv (getenv env) groot) (c :: f))) as [nd| |] eqn:L.
    1,3: destruct (get_total (show_handler a) w (Join (ExpandEnv (getenv env) groot) (c :: f)) (lit "Pass '" ++ (c :: f) ++ lit "'" ++ nl ++ nl, [], [])) as [[[out qr] fq] [e G]];
      eexists; exists (concat (map snd fs)); (split; [apply in_order_exists|]); exists cm; (split; [exact A|]); right; exists (c :: f); (split; [exact C|]); cbv beta iota; rewrite L; exists out, qr, fq, e; split; [exact G|reflexivity].
    eexists. exists (concat (map snd fs)). split; [apply in_order_exists|]. exists cm. split; [exact A|]. right. exists (c :: f). split; [exact C|]. cbv beta iota. rewrite L. reflexivity.
Qed.
(** A missing store is reported, whatever the options. *)
Theorem C35_missing_store lower w env groot a o : lookup w (ExpandEnv (getenv env) groot) = NotExist -> Show lower w env groot a o -> o = Done [] [] ERoot.
Proof. intros L H. unfold Show, after_scan, root_of in H. rewrite (C31_missing_root _ _ L) in H. exact H. Qed.
(** A concrete store, name and result. *)
Lemma vault_store : store_at world1 (lit "/vault") vault.
Proof. repeat split; try (vm_compute; congruence). exact vault_wfs. Qed.
Lemma vault_entries : all_entries vault [lit "bank/abn"; lit "sites/github"].
Proof.
  destruct (scan_store _ _ _ vault_store) as [fs [SC [H _]]]. rewrite ex_scan in SC. injection SC as <-. apply H. eexists. split; [apply Permutation_refl|reflexivity].
Qed.
Lemma shares_dec lower sizes q k : shares lower sizes q k <-> existsb (fun g => existsb (eqs g) (splitWord sizes (lower k))) (splitWord sizes q) = true.
Proof.
  rewrite existsb_exists. unfold shares. split; intros [g [A B]]; exists g.
  - split; [apply splitWord_gram; exact A|]. apply existsb_exists. exists g. split; [apply splitWord_gram; exact B|apply eqs_refl].
  - apply existsb_exists in B. destruct B as [g' [B E]]. apply eqs_iff in E. subst g'. split; apply splitWord_gram; assumption.
Qed.
Example ex_show env o : Show ascii_lower world1 env (lit "/vault") {| LineNumbers := true; Line := 0; Field := []; QrCode := false; ShowName := lit "github" |} o ->
  o = Done (lit "Pass 'sites/github'" ++ eol ++ eol ++ lit "1: pw2" ++ eol) [] ENil.
Proof.
  intros H. assert (Ex : ExpandEnv (getenv env) (lit "/vault") = lit "/vault") by reflexivity.
  apply (C35_show_prints_best_entry ascii_lower world1 env _ _ vault _ _ _ eq_refl Ex vault_store vault_entries) in H; [|vm_compute; discriminate|discriminate|reflexivity].
  cbn [ShowName LineNumbers Line] in H. destruct H as [[f [c [ts [[I [SH _]] [EC [T H]]]]]]|[N _]].
  - assert (f = lit "sites/github").
    { destruct I as [<-|[<-|[]]]; [|reflexivity]. apply shares_dec in SH. vm_compute in SH. discriminate. }
    subst f. assert (c = lit "pw2").
    { apply (entry_content_unique vault (lit "sites/github") _ _ vault_wfs EC). exists (lit "sites"), (lit "github"). split; [|split; [|reflexivity]].
      - split; [vm_compute; tauto|]. split; [discriminate|]. eexists. exists (lit "pw2"). split; [right; left; reflexivity|right; left; reflexivity].
      - eexists. split; [right; left; reflexivity|right; left; reflexivity]. }
    subst c. assert (Ts : ts = [lit "pw2"]).
    { apply (shown_unique (lit "pw2")); [exact T|]. exists [lit "pw2"], [lit "pw2"]. split; [apply fl_last; [discriminate|cbn; intuition discriminate]|]. split.
      - apply rd_line; [cbn [length lit map list_ascii_of_string]; lia|constructor].
      - constructor; [right; split; [reflexivity|]; intros a E; symmetry in E; apply (f_equal (@rev _)) in E; rewrite rev_app_distr in E; vm_compute in E; discriminate|constructor]. }
    subst ts. destruct H as [[B _]|[_ ->]]; [cbn in B; intuition discriminate|]. reflexivity.
  - exfalso. apply (N (lit "sites/github")); [right; left; reflexivity|]. apply shares_dec. vm_compute. reflexivity.
Qed.

(** ** C52 *)
(** p, as seen on a terminal, is a QR code of level L that reads back as t. *)
Definition reads_as (t p : str) : Prop :=
  exists rows, screen full_glyphs (map Z.to_N p) = Some rows /\ read_text (crop_side 4 rows) (crop 4 rows) = Some (0, map Z.to_N t).
Definition qr_fits (t : str) : Prop := exists v, 1 <= v <= 40 /\ QrSpec.fits v 0 (map Z.to_N t).
(** The end of show with -q for a text t after printing out: the code is drawn, or show crashes if the text fits no version. *)
Definition draws (out t : str) (o : CmdModel.Outcome) : Prop :=
  (qr_fits t /\ exists p, reads_as t p /\ o = Done (out ++ p) [] ENil) \/ (~ qr_fits t /\ o = Panicked).
Lemma qr_print_draws out t : bytes t -> draws out t (match qr_print t with Some p => Done (out ++ p) [] ENil | None => Panicked end).
Proof.
  intros B. unfold draws, qr_print. assert (Bt : Forall byteb (map Z.to_N t)).
  { rewrite Forall_map. eapply Forall_impl; [|exact B]. intros b H. unfold byteb. cbn beta in H. lia. }
  destruct (Generate (map Z.to_N t) 0) as [ws|] eqn:G.
  - left. assert (Q : qr_fits t).
    { unfold Generate, GenerateWithConfig in G. destruct (Encode (map Z.to_N t) 0) as [code| |] eqn:E; try discriminate. destruct (C20_smallest_version (map Z.to_N t) 0 code Bt (Nat.le_0_l 3) E) as [v [H1 [_ [H2 _]]]]. exists v. auto. }
    split; [exact Q|]. destruct (C24_full_screen_reads_back (map Z.to_N t) 0 Bt (Nat.le_0_l 3) Q) as [out' [rows [G' [H1 H2]]]]. rewrite G in G'. injection G' as <-.
    exists (map Z.of_N (concat ws)). split; [|reflexivity]. exists rows. rewrite map_map. rewrite (map_ext _ (fun x => x)) by (intros x; apply N2Z.id). rewrite map_id. auto.
  - right. split; [|reflexivity]. intros Q. destruct (C24_full_screen_reads_back (map Z.to_N t) 0 Bt (Nat.le_0_l 3) Q) as [out' [rows [G' _]]]. congruence.
Qed.
Lemma trim_left_tail fuel : forall s, exists a, s = a ++ trim_left fuel s.
Proof.
  induction fuel as [|f IH]; intros s; [exists []; reflexivity|]. destruct s as [|c s]; [exists []; reflexivity|]. cbn [trim_left]. destruct (decode (c :: s)) as [r w]. destruct (isSpace r); [|exists []; reflexivity].
  destruct (IH (skipn w (c :: s))) as [a E]. exists (firstn w (c :: s) ++ a). rewrite <- app_assoc, <- E, firstn_skipn. reflexivity.
Qed.
Lemma trim_right_head fuel : forall s, exists b, s = trim_right fuel s ++ b.
Proof.
  induction fuel as [|f IH]; intros s; [exists []; cbn; rewrite app_nil_r; reflexivity|]. destruct s as [|c s]; [exists []; reflexivity|]. cbn [trim_right]. destruct (decode_last (c :: s)) as [r w]. destruct (isSpace r); [|exists []; rewrite app_nil_r; reflexivity].
  match goal with |- context [firstn ?k (c :: s)] => destruct (IH (firstn k (c :: s))) as [b E]; exists (b ++ skipn k (c :: s)); rewrite app_assoc, <- E, firstn_skipn; reflexivity end.
Qed.
Lemma TrimSpace_part s : exists a b, s = a ++ TrimSpace s ++ b.
Proof. unfold TrimSpace. destruct (trim_left_tail (length s) s) as [a E]. destruct (trim_right_head (length (trim_left (length s) s)) (trim_left (length s) s)) as [b E']. exists a, b. rewrite <- E'. exact E. Qed.
Lemma after_colon_spec s : match after_colon s with Some t => exists p, s = p ++ 58%Z :: t /\ ~ In 58%Z p | None => ~ In 58%Z s end.
Proof.
  induction s as [|c s IH]; [intros []|]. cbn [after_colon]. destruct (Z.eqb_spec c 58) as [->|N].
  - exists []. split; [reflexivity|intros []].
  - destruct (after_colon s) as [t|].
    + destruct IH as [p [-> H]]. exists (c :: p). split; [reflexivity|]. intros [E|I]; [congruence|exact (H I)].
    + intros [E|I]; [congruence|exact (IH I)].
Qed.
Lemma strip_value field l : length field <= length l -> qr_value field l (strip_field (TrimSpace (skipn (length field) l))).
Proof.
  intros L. exists (firstn (length field) l). split; [rewrite firstn_length; lia|]. exists (skipn (length field) l). split; [rewrite firstn_skipn; reflexivity|].
  set (u := TrimSpace (skipn (length field) l)). pose proof (after_colon_spec u) as H. unfold strip_field. destruct (after_colon u) as [t|]; [left; exact H|right; auto].
Qed.
Lemma qr_value_bytes field l t : bytes l -> qr_value field l t -> bytes t.
Proof.
  intros B [cut [_ [rest [-> H]]]]. unfold bytes in *. apply Forall_app in B. destruct B as [_ B]. destruct (TrimSpace_part rest) as [a [b E]]. rewrite E in B. rewrite !Forall_app in B. destruct B as [_ [B _]].
  destruct H as [[p [E' _]]|[_ ->]]; [|exact B]. rewrite E' in B. apply Forall_app in B. destruct B as [_ B]. inversion B; assumption.
Qed.
Lemma qr_value_unique field l t t' : qr_value field l t -> qr_value field l t' -> t = t'.
Proof.
  intros [cut [L [rest [E H]]]] [cut' [L' [rest' [E' H']]]]. rewrite E in E'. assert (X : cut = cut' /\ rest = rest').
  { clear -L L' E'. rewrite <- L' in L. clear L'. revert cut' L E'. induction cut as [|c cut IH]; intros [|c' cut'] L E; try discriminate; [auto|]. cbn in *. injection L as L. injection E as -> E. destruct (IH _ L E) as [-> ->]. auto. }
  destruct X as [_ <-]. destruct H as [[p [Ep Np]]|[Np ->]], H' as [[p' [Ep' Np']]|[Np' ->]].
  - rewrite Ep in Ep'. clear -Ep' Np Np'. revert p' Np' Ep'. induction p as [|c p IH]; intros [|c' p'] Np' E; cbn in E.
    + injection E as ->. reflexivity.
    + injection E as E0 _. exfalso. apply Np'. left. congruence.
    + injection E as E0 _. exfalso. apply Np. left. congruence.
    + injection E as <- E. apply (IH ltac:(intros I; apply Np; right; exact I) p' ltac:(intros I; apply Np'; right; exact I) E).
  - exfalso. apply Np'. rewrite Ep. apply in_or_app. right. left. reflexivity.
  - exfalso. apply Np. rewrite Ep'. apply in_or_app. right. left. reflexivity.
  - reflexivity.
Qed.
Lemma shown_bytes content texts : bytes content -> shown content texts -> Forall bytes texts.
Proof.
  intros B [ls [vs [F [R T]]]].
  assert (Bl : Forall bytes ls).
  { clear R T. induction F as [|l N1 N2|l rest ls N F IH]; [constructor|repeat constructor; exact B|]. unfold bytes in B. apply Forall_app in B. destruct B as [B1 B2]. inversion B2; subst. constructor; [exact B1|apply IH; assumption]. }
  assert (Bv : Forall bytes vs). { clear -R Bl. induction R as [|l ls Lg|l ls vs Lg R IH]; [constructor|constructor|]. inversion Bl; subst. constructor; [assumption|apply IH; assumption]. }
  clear -T Bv. induction T as [|l t vs ts H T IH]; [constructor|]. inversion Bv as [|? ? B1 B2]; subst. constructor; [|apply IH; assumption]. destruct H as [->|[-> _]]; [|exact B1]. unfold bytes in B1. apply Forall_app in B1. tauto.
Qed.
Lemma qr_selected_in line field texts : qr_selected line field texts <> [] -> In (qr_selected line field texts) texts.
Proof.
  unfold qr_selected. set (p := fun e : nat * str => _). intros H. assert (X : forall l : list str, last l [] <> [] -> In (last l []) l).
  { induction l as [|a l IH]; intros Hl; [contradiction|]. destruct l as [|b l]; [left; reflexivity|]. right. apply IH. exact Hl. }
  apply X in H. apply in_map_iff in H. destruct H as [[n t] [E I]]. cbn [snd] in E. apply filter_In in I. destruct I as [I _]. rewrite E in I. clear -I. revert I. generalize (last (map snd (filter p (numbered 1 texts))) []). intros x.
  generalize 1 at 1. induction texts as [|t0 ts IH]; intros k I; [destruct I|]. destruct I as [I|I]; [injection I as _ ->; left; reflexivity|right; exact (IH _ I)].
Qed.
Definition head_of (f : str) : str := lit "Pass '" ++ f ++ lit "'" ++ eol ++ eol.
(** show -q: after the text, a code that reads back as the value of the selected line or, if none (or an empty one) is selected,
    as all lines each preceded by " / "; a crash if the selected line is shorter than the field name or the text fits no code. *)
Theorem C52_qr_text lower w env groot root es ws a o : lower [] = [] ->
  ExpandEnv (getenv env) groot = root -> store_at w root es -> all_entries es ws -> CmSpec.fits ws -> ShowName a <> [] -> QrCode a = true ->
  (forall f content, entry_content es f content -> bytes content) ->
  Show lower w env groot a o ->
  (exists f content texts, best_match lower ws (ShowName a) f /\ entry_content es f content /\ shown content texts /\
     ((binary texts /\ o = Done (head_of f ++ lit "Error: cannot show binary file" ++ eol) [] ENil) \/
      (~ binary texts /\
        let out := head_of f ++ show_body (LineNumbers a) (Line a) texts in
        let l := qr_selected (Line a) (Field a) texts in
        ((l = [] /\ texts = [] /\ o = Done out [] ENil) \/
         (l = [] /\ texts <> [] /\ draws out (concat (map (fun t => lit " / " ++ t) texts)) o) \/
         (l <> [] /\ length l < length (Field a) /\ o = Panicked) \/
         (l <> [] /\ exists t, qr_value (Field a) l t /\ draws out t o)))))
  \/ (no_match lower ws (ShowName a) /\ o = Done [] [] ENil).
Proof.
  intros Ll <- ST AE F NE Q BY H. destruct (show_run lower w env groot a o es ws Ll ST AE F NE H) as [[f [c [ts [B [EC [T [[Bi ->]|[Bi ->]]]]]]]]|[N ->]].
  - left. exists f, c, ts. split; [exact B|]. split; [exact EC|]. split; [exact T|]. left. split; [exact Bi|]. unfold show_end, qr_text. rewrite Q. reflexivity.
  - left. exists f, c, ts. split; [exact B|]. split; [exact EC|]. split; [exact T|]. right. split; [exact Bi|]. cbv zeta. rewrite Q. fold (head_of f). set (out := head_of f ++ show_body (LineNumbers a) (Line a) ts).
    assert (Bts := shown_bytes c ts (BY f c EC) T). unfold show_end, qr_text. rewrite Q. pose proof (qr_selected_in (Line a) (Field a) ts) as SI. set (l := qr_selected (Line a) (Field a) ts) in *. destruct l as [|b l0] eqn:El.
    + destruct ts as [|t ts]; [left; auto|]. right. left. split; [reflexivity|]. split; [discriminate|]. cbn [map concat lit app].
      change (match qr_print (concat (map (fun t => lit " / " ++ t) (t :: ts))) with Some p => Done (out ++ p) [] ENil | None => Panicked end) with (match qr_print (concat (map (fun t => lit " / " ++ t) (t :: ts))) with Some p => Done (out ++ p) [] ENil | None => Panicked end).
      apply (qr_print_draws out (concat (map (fun t => lit " / " ++ t) (t :: ts)))). clear -Bts. induction Bts as [|x xs Bx Bxs IH]; [constructor|]. cbn [map concat]. unfold bytes in *. apply Forall_app. split; [apply Forall_app; split; [repeat constructor; lia|exact Bx]|exact IH].
    + destruct (Nat.ltb_spec (length (b :: l0)) (length (Field a))) as [Ls|Ls]; [right; right; left; split; [discriminate|auto]|]. right. right. right. split; [discriminate|].
      assert (V := strip_value (Field a) (b :: l0) Ls). eexists. split; [exact V|]. apply qr_print_draws. apply (qr_value_bytes (Field a) (b :: l0)); [|exact V]. rewrite Forall_forall in Bts. apply Bts. apply SI. discriminate.
  - right. split; [exact N|]. unfold show_end, qr_text. rewrite Q. reflexivity.
Qed.
(** So a line with a colon inside never comes back: its code holds a shorter text. *)
Theorem C52_colon_password_refuted l t out o p : In 58%Z (TrimSpace l) -> qr_value [] l t -> draws out t o -> o = Done (out ++ p) [] ENil ->
  length t < length l /\ ~ reads_as (map Z.of_N (map Z.to_N l)) p.
Proof.
  intros C V D E. assert (Lt : length t < length l).
  { destruct V as [cut [L [rest [-> H]]]]. destruct cut; [|discriminate]. cbn [app] in *. destruct (TrimSpace_part rest) as [x [y Ex]]. rewrite Ex, !app_length. destruct H as [[q [Eq _]]|[N _]]; [|contradiction]. rewrite Eq, app_length. cbn [length]. lia. }
  split; [exact Lt|]. intros [rows' [S1 R1]]. destruct D as [[_ [p' [[rows [S2 R2]] E']]]|[_ E']]; rewrite E in E'; [|discriminate]. injection E' as E'. apply app_inv_head in E'. subst p'.
  rewrite S1 in S2. injection S2 as ->. rewrite R1 in R2. injection R2 as R2. apply (f_equal (@length N)) in R2. rewrite !map_length in R2. lia.
Qed.
(** A field asked for without its colon keeps the space that follows the colon. *)
Theorem C52_field_keeps_space field v : TrimSpace (58%Z :: 32%Z :: v) = 58%Z :: 32%Z :: v -> qr_value field (field ++ lit ": " ++ v) (32%Z :: v).
Proof.
  intros T. exists field. split; [reflexivity|]. exists (lit ": " ++ v). split; [reflexivity|]. left. exists []. split; [exact T|intros []].
Qed.
(** A field asked for with its colon gives the value. *)
Theorem C52_field_value name v : TrimSpace (32%Z :: v) = v -> ~ In 58%Z v -> qr_value (name ++ lit ":") (name ++ lit ": " ++ v) v.
Proof.
  intros T N. exists (name ++ lit ":"). split; [reflexivity|]. exists (32%Z :: v). split; [rewrite <- app_assoc; reflexivity|]. right. rewrite T. auto.
Qed.
Example ex_qr_colon : qr_value [] (lit "ab:cd") (lit "cd") /\ In 58%Z (TrimSpace (lit "ab:cd")).
Proof. split; [|vm_compute; tauto]. exists []. split; [reflexivity|]. exists (lit "ab:cd"). split; [reflexivity|]. left. exists (lit "ab"). split; [vm_compute; reflexivity|cbn; intuition discriminate]. Qed.
Example ex_qr_field : qr_selected 0 (lit "user") [lit "secret"; lit "user: bob"] = lit "user: bob" /\ qr_value (lit "user") (lit "user: bob") (lit " bob").
Proof. split; [reflexivity|]. apply (C52_field_keeps_space (lit "user") (lit "bob")). vm_compute. reflexivity. Qed.
(** -q -i 1 -f otpauth on an entry with a short password and no such field. *)
Example ex_qr_short : qr_selected 1 (lit "otpauth") [lit "pw2"] = lit "pw2" /\ length (lit "pw2") < length (lit "otpauth").
Proof. vm_compute. repeat constructor. Qed.

(** ** C36: set-env *)
Lemma setenv_valid env k v : valid_key k -> ~ In 0%Z v -> forall x, setenv env k v x = if str_dec x k then Some v else env x.
Proof.
  intros [K1 [K2 K3]] V x. unfold setenv. rewrite (eqs_false _ _ K1). cbn [orb].
  assert (X : existsb (fun c => (c =? 61) || (c =? 0))%Z k = false).
  { destruct (existsb _ k) eqn:E; [|reflexivity]. apply existsb_exists in E. destruct E as [c [I E]]. apply orb_true_iff in E. destruct E as [E|E]; apply Z.eqb_eq in E; subst; contradiction. }
  assert (Y : existsb (fun c => c =? 0)%Z v = false).
  { destruct (existsb _ v) eqn:E; [|reflexivity]. apply existsb_exists in E. destruct E as [c [I E]]. apply Z.eqb_eq in E. subst. contradiction. }
  rewrite X, Y. reflexivity.
Qed.
Lemma setenv_invalid env k v : ~ valid_key k -> forall x, setenv env k v x = env x.
Proof.
  intros NV x. unfold setenv. destruct (eqs k []) eqn:E; [reflexivity|]. cbn [orb]. destruct (existsb (fun c => (c =? 61) || (c =? 0))%Z k) eqn:X; [reflexivity|]. exfalso. apply NV. split; [intros ->; discriminate|].
  assert (Y : forall c, In c k -> c <> 61%Z /\ c <> 0%Z).
  { intros c I. split; intros ->; (assert (T : existsb (fun c => (c =? 61) || (c =? 0))%Z k = true) by (apply existsb_exists; eexists; split; [exact I|reflexivity])); congruence. }
  split; intros I; apply Y in I; intuition congruence.
Qed.
Definition assign (env : Env) (ps : list (str * str)) : Env := fold_left (fun e p => setenv e (fst p) (snd p)) ps env.
Lemma handle_env upper : forall texts pw env out,
  handle_all (env_handler upper) 1 texts (pw, env, out) = (hd pw texts, assign env (env_pairs upper texts), out ++ printed (env_pairs upper texts)).
Proof.
  intros texts pw env out. destruct texts as [|t ts]; [cbn; rewrite app_nil_r; reflexivity|]. cbn [handle_all hd env_pairs]. unfold env_handler at 1. cbn [Nat.eqb].
  assert (K : forall ts n pw env out, 2 <= n -> handle_all (env_handler upper) n ts (pw, env, out) =
    (pw, assign env (flat_map (fun t => if HasPrefix t (lit "env:") then [(upper (TrimSpace (skipn 4 t)), pw)] else []) ts),
      out ++ printed (flat_map (fun t => if HasPrefix t (lit "env:") then [(upper (TrimSpace (skipn 4 t)), pw)] else []) ts))).
  { clear. induction ts as [|t ts IH]; intros n pw env out Ln; [cbn; rewrite app_nil_r; reflexivity|]. cbn [handle_all flat_map]. unfold env_handler at 1. destruct (Nat.eqb_spec n 1); [lia|].
    unfold trim_prefix. destruct (HasPrefix t (lit "env:")); [|rewrite IH by lia; reflexivity]. change (length (lit "env:")) with 4. rewrite IH by lia. cbn [app]. unfold assign, printed. cbn [fold_left map concat fst snd]. unfold nl, eol. rewrite <- !app_assoc. reflexivity. }
  apply K. lia.
Qed.
Lemma setenv_run upper w root es name : store_at w root es -> forall order env out env' out' e, (forall f, In f order -> exists cat n, entry es cat n /\ f = rel cat n) ->
  setenv_files upper w root name order env out env' out' e ->
  exists before ps, assignments upper es name before ps /\ env' = assign env ps /\ out' = out ++ printed ps /\
    ((before = order /\ e = ENil) \/ (exists f after, order = before ++ f :: after /\ selected name f /\ binary_entry es f /\ e = ELine LBinary)).
Proof.
  intros ST order env out env' out' e HO H. induction H as [env out|f fs env out env' out' e N1 N2 H IH|f fs env out pw env1 out1 env' out' e SL G H IH|f fs env out pw env1 out1 e SL G NE].
  - exists [], []. split; [constructor|]. split; [reflexivity|]. split; [cbn; rewrite app_nil_r; reflexivity|]. left. auto.
  - destruct IH as [before [ps [A [E1 [E2 H3]]]]]; [intros g I; apply HO; right; exact I|]. exists (f :: before), ps. split; [apply as_skip; [intros [X|X]; contradiction|exact A]|]. split; [exact E1|]. split; [exact E2|].
    destruct H3 as [[-> ->]|[g [after [-> R]]]]; [left; auto|right; exists g, after; auto].
  - destruct IH as [before [ps [A [E1 [E2 H3]]]]]; [intros g I; apply HO; right; exact I|].
    destruct (entry_file2 _ _ _ f ST (HO f ltac:(left; reflexivity))) as [_ [content [EC [_ OR]]]]. destruct (shown_exists content) as [ts T]. destruct (get_spec _ _ _ _ _ _ _ OR G ts T) as [[_ [_ X]]|[B [X _]]]; [discriminate|].
    rewrite handle_env in X. apply trip in X. destruct X as [_ [-> ->]]. exists (f :: before), (env_pairs upper ts ++ ps). split; [eapply as_file; eassumption|]. split; [rewrite E1; unfold assign; rewrite fold_left_app; reflexivity|].
    split; [rewrite E2; unfold printed; rewrite map_app, concat_app, <- app_assoc; reflexivity|]. destruct H3 as [[-> ->]|[g [after [-> R]]]]; [left; auto|right; exists g, after; auto].
  - destruct (entry_file2 _ _ _ f ST (HO f ltac:(left; reflexivity))) as [_ [content [EC [_ OR]]]]. destruct (shown_exists content) as [ts T]. destruct (get_spec _ _ _ _ _ _ _ OR G ts T) as [[B [X ->]]|[_ [_ X]]]; [|contradiction].
    apply trip in X. destruct X as [_ [-> ->]]. exists [], []. split; [constructor|]. split; [reflexivity|]. split; [cbn; rewrite app_nil_r; reflexivity|]. right. exists f, fs. split; [reflexivity|]. split; [exact SL|]. split; [exists content, ts; auto|reflexivity].
Qed.
(** The value of a variable after a list of assignments (without NUL values). *)
Lemma assign_value ps : forall env k, (forall a b, In (a, b) ps -> ~ In 0%Z b) ->
  (exists v, last_value ps k v /\ assign env ps k = Some v) \/ ((forall v, ~ last_value ps k v) /\ assign env ps k = env k).
Proof.
  induction ps as [|[a b] ps IH] using rev_ind; intros env k NZ.
  - right. split; [|reflexivity]. intros v [_ [x [y [E _]]]]. destruct x; discriminate.
  - unfold assign. rewrite fold_left_app. cbn [fold_left fst snd]. fold (assign env ps). assert (NZ' : forall a b, In (a, b) ps -> ~ In 0%Z b) by (intros x y I; apply (NZ x y); apply in_or_app; auto).
    assert (Hb : ~ In 0%Z b) by (apply (NZ a b); apply in_or_app; right; left; reflexivity).
    assert (VD : valid_key a \/ ~ valid_key a).
    { unfold valid_key. destruct (str_dec a []) as [->|N]; [right; tauto|]. destruct (in_dec Z.eq_dec 61%Z a); [right; tauto|]. destruct (in_dec Z.eq_dec 0%Z a); [right; tauto|left; auto]. }
    destruct VD as [V|V].
    + rewrite (setenv_valid _ _ _ V Hb). destruct (str_dec k a) as [->|Nk].
      * left. exists b. split; [|reflexivity]. split; [exact V|]. exists ps, []. split; [reflexivity|intros v' []].
      * assert (LV : forall v, last_value (ps ++ [(a, b)]) k v <-> last_value ps k v).
        { intros v. split; intros [Vk [x [y [E Ny]]]]; (split; [exact Vk|]).
          - destruct y as [|z y] using rev_ind; [apply app_inj_tail in E; destruct E as [_ E]; congruence|]. clear IHy. rewrite app_comm_cons, app_assoc in E. apply app_inj_tail in E. destruct E as [-> <-]. exists x, y. split; [reflexivity|]. intros v' I. apply (Ny v'). apply in_or_app. auto.
          - exists x, (y ++ [(a, b)]). split; [rewrite E, <- app_assoc; reflexivity|]. intros v' I. apply in_app_or in I. destruct I as [I|[I|[]]]; [exact (Ny v' I)|congruence]. }
        destruct (IH env k NZ') as [[v [H1 H2]]|[H1 H2]]; [left; exists v; rewrite LV; auto|right]. split; [intros v X; apply LV in X; exact (H1 v X)|exact H2].
    + rewrite (setenv_invalid _ _ _ V).
      assert (LV : forall v, last_value (ps ++ [(a, b)]) k v <-> last_value ps k v).
      { intros v. split; intros [Vk [x [y [E Ny]]]]; (split; [exact Vk|]).
        - destruct y as [|z y] using rev_ind; [apply app_inj_tail in E; destruct E as [_ E]; congruence|]. clear IHy. rewrite app_comm_cons, app_assoc in E. apply app_inj_tail in E. destruct E as [-> <-]. exists x, y. split; [reflexivity|]. intros v' I. apply (Ny v'). apply in_or_app. auto.
        - exists x, (y ++ [(a, b)]). split; [rewrite E, <- app_assoc; reflexivity|]. intros v' I. apply in_app_or in I. destruct I as [I|[I|[]]]; [exact (Ny v' I)|congruence]. }
      destruct (IH env k NZ') as [[v [H1 H2]]|[H1 H2]]; [left; exists v; rewrite LV; auto|right]. split; [intros v X; apply LV in X; exact (H1 v X)|exact H2].
Qed.
Lemma env_pairs_nonul upper texts k v : ~ binary texts -> In (k, v) (env_pairs upper texts) -> ~ In 0%Z v.
Proof.
  intros B I. destruct texts as [|pw more]; [destruct I|]. cbn [env_pairs] in I. apply in_flat_map in I. destruct I as [t [_ I]]. destruct (HasPrefix t _); [|destruct I]. destruct I as [I|[]]. injection I as _ <-. exact B.
Qed.
Lemma assignments_in upper es name fs ps k v : assignments upper es name fs ps -> In (k, v) ps ->
  exists f content texts, In f fs /\ selected name f /\ entry_content es f content /\ shown content texts /\ ~ binary texts /\ In (k, v) (env_pairs upper texts).
Proof.
  induction 1 as [|f fs ps N A IH|f fs ps content texts SL EC T B A IH]; intros I; [destruct I|destruct (IH I) as [g [c [ts [X Y]]]]; exists g, c, ts; split; [right; exact X|exact Y]|].
  apply in_app_or in I. destruct I as [I|I]; [exists f, content, texts; split; [left; reflexivity|auto]|]. destruct (IH I) as [g [c [ts [X Y]]]]. exists g, c, ts. split; [right; exact X|exact Y].
Qed.
Lemma assignments_all upper es name fs ps f content texts k v : wfs es -> assignments upper es name fs ps -> In f fs -> selected name f -> entry_content es f content -> shown content texts ->
  In (k, v) (env_pairs upper texts) -> In (k, v) ps.
Proof.
  intros W. induction 1 as [|g fs ps N A IH|g fs ps c ts SL EC T B A IH]; intros If S1 E1 T1 I; [destruct If|..].
  - destruct If as [<-|If]; [contradiction|]. apply IH; assumption.
  - apply in_or_app. destruct If as [<-|If]; [left|right; apply IH; assumption]. rewrite (entry_content_unique _ _ _ _ W EC E1) in T. rewrite (shown_unique _ _ _ T T1). exact I.
Qed.
(** set-env, exactly: in some order of the entries, the assignments of the selected ones are made and printed one by one, up to
    the first binary file, which ends it with an error. *)
Theorem C36_exact upper w env groot root es name env' o : ExpandEnv (getenv env) groot = root -> store_at w root es -> SetEnv upper w env groot name env' o ->
  exists order before ps e, all_entries es order /\ assignments upper es name before ps /\ o = Done (printed ps) [] e
    /\ (forall k, (exists v, last_value ps k v /\ env' k = Some v) \/ ((forall v, ~ last_value ps k v) /\ env' k = env k))
    /\ ((before = order /\ e = ENil) \/ (exists f after, order = before ++ f :: after /\ selected name f /\ binary_entry es f /\ e = ELine LBinary)).
Proof.
  intros <- ST H. destruct (scan_store _ _ _ ST) as [fs [SC [H1 _]]]. inversion H as [o' N R|fs' order env1 out e SC' O R]; subst; [exfalso; exact (N fs SC)|]. unfold root_of in SC'. rewrite SC in SC'. injection SC' as <-. specialize (H1 order O).
  destruct (setenv_run upper w _ es name ST order env [] env' out e ltac:(intros f I; apply H1; exact I) R) as [before [ps [A [E1 [E2 H3]]]]]. exists order, before, ps, e. split; [exact H1|]. split; [exact A|]. split; [rewrite E2; reflexivity|]. split; [|exact H3].
  rewrite E1. intros k. apply assign_value. intros a b I. destruct (assignments_in _ _ _ _ _ _ _ A I) as [f [c [ts [_ [_ [_ [_ [B J]]]]]]]]. exact (env_pairs_nonul _ _ _ _ B J).
Qed.
(** In every case a variable keeps its value or gets the first line of a selected entry with an env: line of that name. *)
Theorem C36_only_documented_values upper w env groot root es name env' o : ExpandEnv (getenv env) groot = root -> store_at w root es -> SetEnv upper w env groot name env' o ->
  forall k, env' k = env k \/ exists v, sets upper es name k v /\ env' k = Some v.
Proof.
  intros E ST H k. destruct (C36_exact _ _ _ _ _ _ _ _ _ E ST H) as [order [before [ps [e [_ [A [_ [V _]]]]]]]]. destruct (V k) as [[v [L X]]|[_ X]]; [right|left; exact X]. exists v. split; [|exact X].
  destruct L as [Vk [a [b [-> _]]]]. destruct (assignments_in _ _ _ _ _ k v A ltac:(apply in_or_app; right; left; reflexivity)) as [f [c [ts [_ R]]]]. split; [exact Vk|]. exists f, c, ts. exact R.
Qed.
(** If no selected entry is binary, set-env succeeds, every variable with an env: line is set to the value of such an entry and
    every other keeps its value; a variable set by one entry, or equally by several, has that value whatever the order. *)
Theorem C36_set_env upper w env groot root es name env' o : ExpandEnv (getenv env) groot = root -> store_at w root es ->
  (forall f, selected name f -> ~ binary_entry es f) -> SetEnv upper w env groot name env' o ->
  (exists out, o = Done out [] ENil) /\ forall k, ((exists v, sets upper es name k v /\ env' k = Some v) \/ ((forall v, ~ sets upper es name k v) /\ env' k = env k))
    /\ forall v, sets upper es name k v -> (forall v', sets upper es name k v' -> v' = v) -> env' k = Some v.
Proof.
  intros E ST NB H. destruct (C36_exact _ _ _ _ _ _ _ _ _ E ST H) as [order [before [ps [e [AE [A [-> [V C]]]]]]]]. destruct C as [[-> ->]|[f [after [_ [S1 [B _]]]]]]; [|exfalso; exact (NB f S1 B)]. split; [eexists; reflexivity|].
  assert (W : wfs es) by apply ST.
  assert (M : forall k v, sets upper es name k v -> exists v', last_value ps k v').
  { intros k v [Vk [f [c [ts [S1 [EC [T [B I]]]]]]]]. assert (If : In f order). { apply AE. destruct EC as [cat [n [X [_ Y]]]]. exists cat, n. auto. }
    assert (Ip := assignments_all _ _ _ _ _ f c ts k v W A If S1 EC T I). clear -Ip Vk. revert v Ip. induction ps as [|[a b] ps IH]; intros v I; [destruct I|].
    destruct (in_dec str_dec k (map fst ps)) as [Y|Y].
    - apply in_map_iff in Y. destruct Y as [[a' b'] [E Y]]. cbn [fst] in E. subst a'. destruct (IH b' Y) as [v' [_ [x [y [-> N]]]]]. exists v'. split; [exact Vk|]. exists ((a, b) :: x), y. auto.
    - destruct I as [I|I]; [|exfalso; apply Y; change k with (fst (k, v)); apply in_map; exact I]. injection I as -> ->. exists v. split; [exact Vk|]. exists [], ps. split; [reflexivity|]. intros v' J. apply Y. change k with (fst (k, v')). apply in_map. exact J. }
  assert (M2 : forall k v, last_value ps k v -> sets upper es name k v).
  { intros k v [Vk [a [b [-> _]]]]. destruct (assignments_in _ _ _ _ _ k v A ltac:(apply in_or_app; right; left; reflexivity)) as [f [c [ts [_ R]]]]. split; [exact Vk|]. exists f, c, ts. exact R. }
  intros k. assert (K : (exists v, sets upper es name k v /\ env' k = Some v) \/ ((forall v, ~ sets upper es name k v) /\ env' k = env k)).
  { destruct (V k) as [[v [L X]]|[L X]]; [left; exists v; auto|right]. split; [|exact X]. intros v S1. destruct (M k v S1) as [v' L']. exact (L v' L'). }
  split; [exact K|]. intros v S1 U. destruct K as [[v' [S2 X]]|[N _]]; [rewrite (U v' S2) in X; exact X|exfalso; exact (N v S1)].
Qed.
(** With a binary file in the store, set-env without a name fails midway: which variables it sets depends on the map's order. *)
Definition vault2 : list (str * Node) := [(lit "bank", Dir [(lit "abn", File [0%Z])]); (lit "sites", Dir [(lit "aws", File (lit "pw" ++ eol ++ lit "env: aws_key"))])].
Definition world2 : World := {| tree := [(lit "vault", Dir vault2)]; cwd := [] |}.
Lemma vault2_store : store_at world2 (lit "/vault") vault2.
Proof. repeat split; try (vm_compute; congruence). repeat (constructor; cbn; try (repeat split; cbn; intuition discriminate)). Qed.
Lemma setenv_total upper w root name : forall order env out, exists env' out' e, setenv_files upper w root name order env out env' out' e.
Proof.
  induction order as [|f fs IH]; intros env out; [exists env, out, ENil; constructor|].
  assert (D : selected name f \/ (f <> name /\ name <> [])). { unfold selected. destruct (str_dec f name), (str_dec name []); tauto. }
  destruct D as [D|[D1 D2]].
  - destruct (get_total (env_handler upper) w (Join root f) ([], env, out)) as [[[pw env1] out1] [e G]]. destruct e.
    + destruct (IH env1 out1) as [env' [out' [e H]]]. exists env', out', e. eapply se_file; eassumption.
    + exists env1, out1, (ELine LOpen). eapply se_error; [exact D|exact G|discriminate].
    + exists env1, out1, (ELine LBinary). eapply se_error; [exact D|exact G|discriminate].
  - destruct (IH env out) as [env' [out' [e H]]]. exists env', out', e. apply se_skip; assumption.
Qed.
(** Every call ends. *)
Theorem C36_ends upper w env groot root es name : ExpandEnv (getenv env) groot = root -> store_at w root es -> exists env' o, SetEnv upper w env groot name env' o.
Proof.
  intros <- ST. destruct (scan_store _ _ _ ST) as [fs [SC _]]. destruct (setenv_total upper w (root_of env groot) name (concat (map snd fs)) env []) as [env' [out [e H]]].
  exists env', (Done out [] e). eapply se_run; [exact SC|apply in_order_exists|exact H].
Qed.
Lemma vault2_aws : entry_content vault2 (lit "sites/aws") (lit "pw" ++ eol ++ lit "env: aws_key") /\ shown (lit "pw" ++ eol ++ lit "env: aws_key") [lit "pw"; lit "env: aws_key"].
Proof.
  split; [|apply (shown_compute (lit "pw" ++ eol ++ lit "env: aws_key")); apply Nat.ltb_lt; vm_compute; reflexivity].
  exists (lit "sites"), (lit "aws"). split; [|split; [|reflexivity]].
  - split; [vm_compute; tauto|]. split; [discriminate|]. eexists. eexists. split; [right; left; reflexivity|left; reflexivity].
  - eexists. split; [right; left; reflexivity|left; reflexivity].
Qed.
Lemma vault2_abn : entry_content vault2 (lit "bank/abn") [0%Z] /\ shown [0%Z] [[0%Z]].
Proof.
  split; [|apply (shown_compute [0%Z]); apply Nat.ltb_lt; vm_compute; reflexivity].
  exists (lit "bank"), (lit "abn"). split; [|split; [|reflexivity]].
  - split; [vm_compute; tauto|]. split; [discriminate|]. eexists. eexists. split; [left; reflexivity|left; reflexivity].
  - eexists. split; [left; reflexivity|left; reflexivity].
Qed.
Lemma vault2_binary f : binary_entry vault2 f -> f = lit "bank/abn".
Proof.
  intros [c [ts [EC [T B]]]]. destruct EC as [cat [n [_ [[sub [I1 I2]] ->]]]]. destruct I1 as [I1|[I1|[]]]; injection I1 as <- <-; destruct I2 as [I2|[]]; injection I2 as <- <-; [reflexivity|].
  exfalso. rewrite (shown_unique _ _ _ T (proj2 vault2_aws)) in B. cbn in B. intuition discriminate.
Qed.
Theorem C36_binary_file_order_refuted : exists w env groot es, store_at w (ExpandEnv (getenv env) groot) es /\
  exists env1 env2 o1 o2, SetEnv ascii_upper w env groot [] env1 o1 /\ SetEnv ascii_upper w env groot [] env2 o2 /\
    sets ascii_upper es [] (lit "AWS_KEY") (lit "pw") /\ env1 (lit "AWS_KEY") = None /\ env2 (lit "AWS_KEY") = Some (lit "pw").
Proof.
  exists world2, (fun _ => None), (lit "/vault"), vault2. split; [exact vault2_store|]. change (ExpandEnv _ _) with (lit "/vault").
  set (fs := [(lit "bank", [lit "bank/abn"]); (lit "sites", [lit "sites/aws"])]). assert (SC : Scan world2 (lit "/vault") = Scanned fs) by (vm_compute; reflexivity).
  assert (HO : forall f, In f [lit "bank/abn"; lit "sites/aws"] -> exists cat n, entry vault2 cat n /\ f = rel cat n).
  { intros f [<-|[<-|[]]]; [destruct (proj1 vault2_abn) as [c [n [E [_ X]]]]|destruct (proj1 vault2_aws) as [c [n [E [_ X]]]]]; exists c, n; auto. }
  assert (SL : forall f, selected [] f) by (intros f; right; reflexivity).
  assert (AB : forall before ps, assignments ascii_upper vault2 [] before ps -> ~ In (lit "bank/abn") before).
  { intros before ps A. induction A as [|f l ps N A IH|f l ps c ts S1 EC T B A IH]; [intros []|exfalso; exact (N (SL f))|]. intros [->|I]; [|exact (IH I)].
    rewrite (entry_content_unique _ _ _ _ ltac:(apply vault2_store) EC (proj1 vault2_abn)) in T. rewrite (shown_unique _ _ _ T (proj2 vault2_abn)) in B. apply B. left. reflexivity. }
  destruct (setenv_total ascii_upper world2 (lit "/vault") [] [lit "bank/abn"; lit "sites/aws"] (fun _ => None) []) as [env1 [out1 [e1 H1]]].
  destruct (setenv_total ascii_upper world2 (lit "/vault") [] [lit "sites/aws"; lit "bank/abn"] (fun _ => None) []) as [env2 [out2 [e2 H2]]].
  exists env1, env2, (Done out1 [] e1), (Done out2 [] e2).
  split; [eapply se_run; [exact SC|exists fs; split; [apply Permutation_refl|reflexivity]|exact H1]|].
  split; [eapply se_run; [exact SC|exists (rev fs); split; [apply perm_swap|reflexivity]|exact H2]|].
  split; [|split].
  - split; [repeat split; cbn; intuition discriminate|]. exists (lit "sites/aws"). do 2 eexists. split; [apply SL|]. split; [exact (proj1 vault2_aws)|]. split; [exact (proj2 vault2_aws)|]. split; [cbn; intuition discriminate|]. left. vm_compute. reflexivity.
  - destruct (setenv_run _ _ _ _ _ vault2_store _ _ _ _ _ _ HO H1) as [before [ps [A [E1 [_ [[-> _]|[f [after [E [_ [B _]]]]]]]]]]]; [exfalso; apply (AB _ _ A); left; reflexivity|].
    apply vault2_binary in B. subst f. destruct before as [|g before]; [inversion A; subst; reflexivity|]. exfalso. destruct before as [|g2 before]; [discriminate|]. destruct before; discriminate.
  - assert (HO2 : forall f, In f [lit "sites/aws"; lit "bank/abn"] -> exists cat n, entry vault2 cat n /\ f = rel cat n) by (intros f [I|[I|[]]]; apply HO; [right; left; exact I|left; exact I]).
    destruct (setenv_run _ _ _ _ _ vault2_store _ _ _ _ _ _ HO2 H2) as [before [ps [A [E1 [_ [[-> _]|[f [after [E [_ [B _]]]]]]]]]]]; [exfalso; apply (AB _ _ A); right; left; reflexivity|].
    apply vault2_binary in B. subst f. destruct before as [|g before]; [discriminate|]. destruct before as [|g2 before]; [|exfalso; destruct before as [|g3 before]; [discriminate|destruct before; discriminate]]. injection E as <- <-.
    inversion A as [|? ? ? N|? ? ps' c ts S1 EC T B A']; subst; [exfalso; exact (N (SL _))|]. inversion A'; subst. rewrite (entry_content_unique _ _ _ _ ltac:(apply vault2_store) EC (proj1 vault2_aws)) in T. rewrite (shown_unique _ _ _ T (proj2 vault2_aws)). vm_compute. reflexivity.
Qed.

(** ** C38: list and search *)
Lemma printlns_lines l : printlns l = lines_of l. Proof. reflexivity. Qed.
(** list: every entry once, category by category, each category in lexical order (on standard error). *)
Theorem C38_list_all lower w env groot root es o : ExpandEnv (getenv env) groot = root -> store_at w root es -> List_ lower w env groot [] o ->
  exists groups, o = Done [] (lines_of (concat (map snd groups))) ENil /\ all_entries es (concat (map snd groups)) /\ all_categories es (map fst groups)
    /\ forall cat l, In (cat, l) groups -> StronglySorted (fun a b => str_lt a b = true) l /\ forall f, In f l <-> exists name, entry es cat name /\ f = rel cat name.
Proof.
  intros <- ST H. destruct (scan_store _ _ _ ST) as [fs [SC [H1 [H2 H3]]]]. unfold List_, after_scan, root_of in H. rewrite SC in H. destruct H as [order [O ->]]. pose proof (H1 _ O) as AE. destruct O as [fs' [P ->]].
  exists fs'. split; [reflexivity|]. split; [exact AE|]. split.
  - destruct H2 as [N E]. assert (P' := Permutation_map fst P). split; [apply (Permutation_NoDup (Permutation_sym P')); exact N|]. intros c. rewrite <- E. split; intros I; [apply (Permutation_in _ P')|apply (Permutation_in _ (Permutation_sym P'))]; exact I.
  - intros cat l I. apply H3. apply (Permutation_in _ P). exact I.
Qed.
(** list SUB: the entries of a category matching SUB best, in lexical order; nothing if no category shares two bytes with SUB. *)
Theorem C38_list_category lower w env groot root es cats sub o : lower [] = [] -> ExpandEnv (getenv env) groot = root -> store_at w root es -> all_categories es cats -> sub <> [] ->
  List_ lower w env groot sub o ->
  (exists c l, best_match lower cats sub c /\ StronglySorted (fun a b => str_lt a b = true) l /\ (forall f, In f l <-> exists name, entry es c name /\ f = rel c name) /\ o = Done [] (lines_of l) ENil)
  \/ (no_match lower cats sub /\ o = Done [] [] ENil).
Proof.
  intros Ll <- ST AC NE H. destruct (scan_store _ _ _ ST) as [fs [SC [H1 [H2 H3]]]]. unfold List_, after_scan, root_of in H. rewrite SC in H. destruct sub as [|s0 sub]; [contradiction|].
  destruct H as [cats' [P [cm [A H]]]]. assert (P2 : Permutation cats' cats) by (eapply Permutation_trans; [exact P|apply (all_categories_perm es); assumption]).
  assert (F : CmSpec.fits cats).
  { assert (L : length cats <= length categories). { apply NoDup_incl_length; [apply AC|]. intros c I. apply AC in I. destruct I as [n [E _]]. exact E. }
    unfold CmSpec.fits. change (length categories) with 6 in L. apply N.le_trans with 6%N; [lia|vm_compute; discriminate]. }
  destruct H as [[C _]|[c [C ->]]]; [exfalso; refine (no_crash lower cats' cm _ Ll A _ NE C); exact (fits_perm _ _ (Permutation_sym P2) F)|].
  destruct (closest_best lower cats' cats cm _ _ P2 A F C) as [B|[-> N]].
  - left. assert (I : In c (map fst fs)) by (apply H2; apply AC; apply B). apply in_map_iff in I. destruct I as [[c' l] [E I]]. cbn [fst] in E. subst c'. destruct (H3 _ _ I) as [H4 H5]. exists c, l. split; [exact B|]. split; [exact H4|]. split; [exact H5|].
    apply (get_in str_dec) in I; [|apply H2]. rewrite I. reflexivity.
  - right. split; [exact N|]. destruct (get str_dec fs []) as [l|] eqn:G; [|reflexivity]. exfalso. apply (get_in str_dec) in G; [|apply H2]. assert (I : In [] (map fst fs)) by (apply in_map_iff; exists ([], l); auto). apply H2 in I. destruct I as [n [E _]]. apply category_normal in E. destruct E as [E _]. contradiction.
Qed.
Lemma top_of lower ws ws' cm q n res : Permutation ws ws' -> New lower ws [2] cm -> CmSpec.fits ws' -> ClosestN cm q n res -> top_matches lower ws' q n res.
Proof.
  intros P A F C. apply (fits_perm _ _ (Permutation_sym P)) in F. destruct (C27_ClosestN _ _ _ _ _ _ _ A F C) as [T1 [T2 [T3 [T4 T5]]]]. assert (P' := Permutation_sym P).
  split; [exact T1|]. split; [exact T2|]. split; [|split].
  - intros k I. destruct (T3 k I) as [X Y]. split; [apply (Permutation_in _ P); exact X|exact Y].
  - intros i j k k' v v' L E1 E2 S1 S2. apply (T4 i j k k' v v' L E1 E2); eapply is_score_perm; eassumption.
  - intros k v I SH NI S1. destruct (T5 k v) as [X Y]; [apply (Permutation_in _ P'); exact I|exact SH|exact NI|eapply is_score_perm; eassumption|]. split; [exact X|]. intros k' v' I' S2. apply (Y k' v' I'). eapply is_score_perm; eassumption.
Qed.
Lemma print_matches_text f ms : print_matches f ms = matches_text f ms.
Proof. reflexivity. Qed.
Lemma search_print_spec w root es p : store_at w root es -> forall fs out, (forall f, In f fs -> exists cat n, entry es cat n /\ f = rel cat n) -> search_print w root p fs out ->
  exists outs, out = concat outs /\ Forall2 (found_in es p) fs outs.
Proof.
  intros ST fs out HO H. induction H as [|f fs ms out SI H IH]; [exists []; split; [reflexivity|constructor]|].
  destruct IH as [outs [-> F2]]; [intros g I; apply HO; right; exact I|]. exists (matches_text f ms :: outs). split; [reflexivity|]. constructor; [|exact F2].
  destruct (entry_file2 _ _ _ f ST (HO f ltac:(left; reflexivity))) as [_ [content [EC [_ OR]]]]. apply C33_search_in_file in SI. rewrite OR in SI. destruct SI as [ts [T M]]. exists content, ts, ms. auto.
Qed.
Lemma contains_iff s sub : contains s sub = true <-> exists a b, s = a ++ sub ++ b.
Proof.
  induction s as [|c s IH].
  - cbn [contains]. rewrite orb_false_r, HasPrefix_iff. split; [intros [r E]; exists [], r; exact E|]. intros [a [b E]]. destruct a; [exists b; exact E|discriminate].
  - cbn [contains]. rewrite orb_true_iff, HasPrefix_iff, IH. split.
    + intros [[r E]|[a [b E]]]; [exists [], r; exact E|exists (c :: a), b; rewrite E; reflexivity].
    + intros [[|x a] [b E]]; [left; exists b; exact E|right]. injection E as _ E. exists a, b. exact E.
Qed.
(** search: the --fuzzy best matching entries, best first, one per line (on standard error). *)
Theorem C38_search lower w env groot root es ws a o : lower [] = [] -> ExpandEnv (getenv env) groot = root -> store_at w root es -> all_entries es ws -> CmSpec.fits ws ->
  Search a <> [] -> (0 <= Fuzzy a)%Z -> Search_ lower w env groot a o ->
  exists res, top_matches lower ws (Search a) (Z.to_nat (Fuzzy a)) res /\
    ((Content a = [] /\ o = Done [] (lines_of res) ENil) \/
     (Content a <> [] /\ exists p outs, (forall t, p t = true <-> exists x y, t = x ++ Content a ++ y) /\ Forall2 (found_in es p) res outs /\ o = Done (concat outs) [] ENil)).
Proof.
  intros Ll <- ST AE F NE NN H. destruct (scan_store _ _ _ ST) as [fs [SC [H1 _]]]. unfold Search_, after_scan, root_of in H. rewrite SC in H. destruct (Search a) as [|q0 q] eqn:EQ; [contradiction|]. rewrite <- EQ in *.
  destruct H as [order [O [cm [A H]]]]. assert (P := all_entries_perm _ _ _ (H1 _ O) AE). destruct (Z.ltb_spec (Fuzzy a) 0) as [L|_]; [lia|].
  destruct H as [[C _]|[res [C H]]]; [exfalso; refine (no_crash lower order cm _ Ll A _ NE C); exact (fits_perm _ _ (Permutation_sym P) F)|].
  assert (T := top_of _ _ _ _ _ _ _ P A F C). exists res. split; [exact T|]. destruct (Content a) as [|c0 c] eqn:EC; [left; auto|right]. split; [discriminate|]. destruct H as [out [SP ->]].
  destruct (search_print_spec _ _ es _ ST res out ltac:(intros f I; apply AE; apply T; exact I) SP) as [outs [-> F2]]. exists (fun line => contains line (c0 :: c)), outs. split; [intros t; apply contains_iff|]. auto.
Qed.
(** A negative --fuzzy crashes. *)
Theorem C38_negative_fuzzy_panics lower w env groot root es a o : ExpandEnv (getenv env) groot = root -> store_at w root es -> Search a <> [] -> (Fuzzy a < 0)%Z -> Search_ lower w env groot a o -> o = Panicked.
Proof.
  intros <- ST NE L H. destruct (scan_store _ _ _ ST) as [fs [SC _]]. unfold Search_, after_scan, root_of in H. rewrite SC in H. destruct (Search a) as [|q0 q]; [contradiction|]. destruct H as [order [_ [cm [_ H]]]]. destruct (Z.ltb_spec (Fuzzy a) 0); [exact H|lia].
Qed.

(** ** C39: grep *)
Theorem C39_grep compile w env groot root es pat sub o : ExpandEnv (getenv env) groot = root -> store_at w root es -> pat <> [] -> Grep compile w env groot pat sub o ->
  match compile pat with
  | None => o = Done [] [] ERegexp
  | Some rx =>
      match sub, compile sub with
      | _ :: _, None => o = Done [] [] ERegexp
      | _, sx => exists order outs p, all_entries es order /\ Forall2 (found_in es p) order outs /\ o = Done (concat outs) [] ENil /\
          forall t, p t = true <-> rx_match rx t = true /\ (sub = [] \/ exists s, sx = Some s /\ rx_match s (rx_find rx t) = true)
      end
  end.
Proof.
  intros <- ST NE H. destruct (scan_store _ _ _ ST) as [fs [SC [H1 _]]]. unfold Grep, after_scan, root_of in H. rewrite SC in H. destruct pat as [|c0 pat]; [contradiction|]. destruct (compile (c0 :: pat)) as [rx|]; [|exact H].
  assert (K : forall sx order out, in_order fs order -> search_print w (ExpandEnv (getenv env) groot) (grep_test rx sx) order out ->
    exists outs, out = concat outs /\ all_entries es order /\ Forall2 (found_in es (grep_test rx sx)) order outs).
  { intros sx order out O SP. assert (AE := H1 _ O). destruct (search_print_spec _ _ es _ ST order out ltac:(intros f I; apply AE; exact I) SP) as [outs [E F2]]. exists outs. auto. }
  destruct sub as [|d0 sub].
  - destruct H as [order [out [O [SP ->]]]]. destruct (K None order out O SP) as [outs [-> [AE F2]]]. exists order, outs, (grep_test rx None). split; [exact AE|]. split; [exact F2|]. split; [reflexivity|]. intros t. unfold grep_test. destruct (rx_match rx t); intuition congruence.
  - destruct (compile (d0 :: sub)) as [s|]; [|exact H]. destruct H as [order [out [O [SP ->]]]]. destruct (K (Some s) order out O SP) as [outs [-> [AE F2]]]. exists order, outs, (grep_test rx (Some s)). split; [exact AE|]. split; [exact F2|]. split; [reflexivity|].
    intros t. unfold grep_test. destruct (rx_match rx t); [|intuition congruence]. split.
    + intros X. split; [reflexivity|right]. exists s. auto.
    + intros [_ [X|[s' [E X]]]]; [discriminate|]. injection E as <-. exact X.
Qed.

(** ** list, search and grep always end *)
Lemma search_print_total w root p fs : exists out, search_print w root p fs out.
Proof. induction fs as [|f fs [out IH]]; [exists []; constructor|]. destruct (C33_total w (Join root f) p) as [ms [M _]]. eexists. constructor; [exact M|exact IH]. Qed.
Theorem C38_list_ends lower w env groot root es sub : lower [] = [] -> ExpandEnv (getenv env) groot = root -> store_at w root es -> exists o, List_ lower w env groot sub o.
Proof.
  intros Ll <- ST. destruct (scan_store _ _ _ ST) as [fs [SC [H1 [H2 _]]]]. unfold List_, after_scan, root_of. rewrite SC. destruct sub as [|s0 sub]; [eexists; exists (concat (map snd fs)); split; [apply in_order_exists|reflexivity]|].
  destruct (New_exists lower (map fst fs) [2]) as [cm A].
  assert (F : CmSpec.fits (map fst fs)).
  { assert (L : length (map fst fs) <= length categories). { apply NoDup_incl_length; [apply H2|]. intros c I. apply H2 in I. destruct I as [n [E _]]. exact E. }
    unfold CmSpec.fits. change (length categories) with 6 in L. apply N.le_trans with 6%N; [lia|vm_compute; discriminate]. }
  destruct (closest_total cm (s0 :: sub)) as [f C]; [refine (no_crash lower _ cm _ Ll A F _); discriminate|].
  eexists. exists (map fst fs). split; [apply Permutation_refl|]. exists cm. split; [exact A|]. right. exists f. split; [exact C|reflexivity].
Qed.
Theorem C38_search_ends lower w env groot root es ws a : lower [] = [] -> ExpandEnv (getenv env) groot = root -> store_at w root es -> all_entries es ws -> CmSpec.fits ws ->
  exists o, Search_ lower w env groot a o.
Proof.
  intros Ll <- ST AE F. destruct (scan_store _ _ _ ST) as [fs [SC [H1 _]]]. unfold Search_, after_scan, root_of. rewrite SC. destruct (Search a) as [|q0 q] eqn:EQ; [eexists; reflexivity|].
  destruct (New_exists lower (concat (map snd fs)) [2]) as [cm A]. specialize (H1 _ (in_order_exists fs)). assert (P := all_entries_perm _ _ _ H1 AE).
  destruct (Z.ltb_spec (Fuzzy a) 0) as [L|L]; [eexists; exists (concat (map snd fs)); split; [apply in_order_exists|]; exists cm; split; [exact A|reflexivity]|].
  destruct (C27_answers cm (q0 :: q) (Z.to_nat (Fuzzy a))) as [res C]; [refine (no_crash lower _ cm _ Ll A (fits_perm _ _ (Permutation_sym P) F) _); discriminate|].
  destruct (Content a) as [|c0 c].
  - eexists; exists (concat (map snd fs)); split; [apply in_order_exists|]; exists cm; split; [exact A|]. right. exists res. split; [exact C|reflexivity].
  - destruct (search_print_total w (ExpandEnv (getenv env) groot) (fun line => contains line (c0 :: c)) res) as [out SP].
    eexists; exists (concat (map snd fs)); split; [apply in_order_exists|]; exists cm; split; [exact A|]. right. exists res. split; [exact C|]. exists out. split; [exact SP|reflexivity].
Qed.
Theorem C39_grep_ends compile w env groot root es pat sub : ExpandEnv (getenv env) groot = root -> store_at w root es -> exists o, Grep compile w env groot pat sub o.
Proof.
  intros <- ST. destruct (scan_store _ _ _ ST) as [fs [SC _]]. unfold Grep, after_scan, root_of. rewrite SC. destruct pat as [|c0 pat]; [eexists; reflexivity|].
  destruct (compile (c0 :: pat)) as [rx|]; [|eexists; reflexivity].
  assert (K : forall sx, exists o, exists order out, in_order fs order /\ search_print w (ExpandEnv (getenv env) groot) (grep_test rx sx) order out /\ o = Done out [] ENil).
  { intros sx. destruct (search_print_total w (ExpandEnv (getenv env) groot) (grep_test rx sx) (concat (map snd fs))) as [out SP]. eexists; exists (concat (map snd fs)), out. split; [apply in_order_exists|]. split; [exact SP|reflexivity]. }
  destruct sub as [|d0 sub]; [apply K|]. destruct (compile (d0 :: sub)); [apply K|eexists; reflexivity].
Qed.
(** The concrete store meets the hypotheses of the theorems above, so each command has an outcome there, described by its theorem. *)
Example ex_list_search_grep lower env compile : lower [] = [] ->
  (exists o, List_ lower world1 env (lit "/vault") [] o) /\ (exists o, List_ lower world1 env (lit "/vault") (lit "site") o)
  /\ (exists o, Search_ lower world1 env (lit "/vault") {| Fuzzy := 3; Search := lit "git"; Content := lit "pw" |} o)
  /\ (exists o, Grep compile world1 env (lit "/vault") (lit "p.*") [] o).
Proof.
  intros Ll. assert (Ex : ExpandEnv (getenv env) (lit "/vault") = lit "/vault") by reflexivity.
  split; [exact (C38_list_ends lower world1 env _ _ vault [] Ll Ex vault_store)|]. split; [exact (C38_list_ends lower world1 env _ _ vault _ Ll Ex vault_store)|].
  split; [|exact (C39_grep_ends compile world1 env _ _ vault _ _ Ex vault_store)]. apply (C38_search_ends lower world1 env _ _ vault _ _ Ll Ex vault_store vault_entries). vm_compute. discriminate.
Qed.
(** A concrete listing. *)
Example ex_list env : List_ ascii_lower world1 env (lit "/vault") [] (Done [] (lit "sites/github" ++ eol ++ lit "bank/abn" ++ eol) ENil).
Proof.
  unfold List_, after_scan. change (root_of env (lit "/vault")) with (lit "/vault"). rewrite ex_scan. exists [lit "sites/github"; lit "bank/abn"]. split; [|reflexivity].
  exists [(lit "sites", [lit "sites/github"]); (lit "bank", [lit "bank/abn"])]. split; [apply perm_swap|reflexivity].
Qed.
(** A concrete set-env: the entry sites/aws of the second store alone. *)
Example ex_set_env_hyps : (forall f, selected (lit "sites/aws") f -> ~ binary_entry vault2 f) /\ sets ascii_upper vault2 (lit "sites/aws") (lit "AWS_KEY") (lit "pw").
Proof.
  split.
  - intros f [->|E] B; [|discriminate]. apply vault2_binary in B. discriminate.
  - split; [repeat split; cbn; intuition discriminate|]. exists (lit "sites/aws"). do 2 eexists. split; [left; reflexivity|]. split; [exact (proj1 vault2_aws)|]. split; [exact (proj2 vault2_aws)|]. split; [cbn; intuition discriminate|]. left. vm_compute. reflexivity.
Qed.

Print Assumptions C35_show_prints_best_entry.
Print Assumptions C35_show_ends.
Print Assumptions C35_missing_store.
Print Assumptions C52_qr_text.
Print Assumptions C52_colon_password_refuted.
Print Assumptions C52_field_keeps_space.
Print Assumptions C52_field_value.
Print Assumptions C36_exact.
Print Assumptions C36_only_documented_values.
Print Assumptions C36_set_env.
Print Assumptions C36_ends.
Print Assumptions C36_binary_file_order_refuted.
Print Assumptions C38_list_all.
Print Assumptions C38_list_category.
Print Assumptions C38_search.
Print Assumptions C38_negative_fuzzy_panics.
Print Assumptions C38_list_ends.
Print Assumptions C38_search_ends.
Print Assumptions C39_grep.
Print Assumptions C39_grep_ends.
