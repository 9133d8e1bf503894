(** * C63: commands given the exact name of an entry or a category. *)
From Coq Require Import String.
From Coq Require Import ZArith NArith Arith List Bool Lia Permutation Sorting.
From Verif Require Import Utf8 GoStr FsModel CmModel CmSpec CmProofs CmIndex CmProps RepoModel RepoSpec FsProofs RepoLines RepoScan RepoProps
  CmdModel CmdSpec CmdProofs CmdProps InsertSpec InsertProps ExactSpec.
Import ListNotations.
Open Scope nat_scope.

(** ** Pairs *)
Definition win (s : str) (i : nat) : str := firstn 2 (skipn i s).
Lemma win_split s i : S i < length s -> s = firstn i s ++ win s i ++ skipn 2 (skipn i s) /\ length (win s i) = 2 /\ length (firstn i s) = i.
Proof.
  intros L. unfold win. rewrite firstn_skipn, firstn_skipn. split; [reflexivity|]. rewrite !firstn_length, skipn_length. lia.
Qed.
Lemma win_in s i : S i < length s -> pair_in s (win s i).
Proof. intros L. destruct (win_split s i L) as [E [L2 _]]. split; [exact L2|]. exists (firstn i s), (skipn 2 (skipn i s)). exact E. Qed.
Lemma in_win s g : pair_in s g -> exists i, S i < length s /\ g = win s i.
Proof.
  intros [L [a [b E]]]. exists (length a). split; [rewrite E, !app_length; lia|]. unfold win. rewrite E, skipn_app, skipn_all, Nat.sub_diag. cbn [skipn app].
  rewrite firstn_app, <- L, firstn_all, Nat.sub_diag. cbn [firstn]. rewrite app_nil_r. reflexivity.
Qed.
Lemma pair_gram s g : pairs_once s -> 2 <= length s -> (gram [2] s g <-> pair_in s g).
Proof.
  intros [_ NB] L. split.
  - intros [[B [[E|[]] X]]|[N _]]; [split; [symmetry; exact E|exact X]|]. exfalso. destruct (win_split s 0 ltac:(lia)) as [E [L2 _]].
    apply (N (win s 0)). split; [apply NB; apply win_in; lia|]. split; [left; symmetry; exact L2|]. eexists. eexists. exact E.
  - intros H. left. split; [apply NB; exact H|]. destruct H as [L2 X]. split; [left; symmetry; exact L2|exact X].
Qed.
Lemma gram_pair s g : length g = 2 -> gram [2] s g -> pair_in s g.
Proof.
  intros L [[_ [_ X]]|[_ E]]; [split; assumption|]. split; [exact L|]. exists [], []. rewrite app_nil_r. symmetry. exact E.
Qed.
Lemma nonblank_pair_gram s g : blank g = false -> pair_in s g -> gram [2] s g.
Proof. intros B [L X]. left. split; [exact B|]. split; [left; symmetry; exact L|exact X]. Qed.
Lemma nodup_map {A B} (f : A -> B) l : NoDup l -> (forall x y, In x l -> In y l -> f x = f y -> x = y) -> NoDup (map f l).
Proof.
  induction l as [|a l IH]; intros N H; [constructor|]. inversion N as [|? ? N1 N2]; subst. cbn [map]. constructor.
  - intros I. apply in_map_iff in I. destruct I as [y [E I]]. apply N1. rewrite (H a y (or_introl eq_refl) (or_intror I) (eq_sym E)). exact I.
  - apply IH; [exact N2|]. intros x y X Y. apply H; right; assumption.
Qed.
(** A name without repeated pairs has as many substrings as places. *)
Lemma pairs_count e : pairs_once e -> 2 <= length e -> length e - 1 <= length (splitWord [2] e).
Proof.
  intros P L. replace (length e - 1) with (length (map (win e) (seq 0 (length e - 1)))) by (rewrite map_length, seq_length; reflexivity). apply NoDup_incl_length.
  - apply nodup_map; [apply seq_NoDup|]. intros i j Hi Hj E. apply in_seq in Hi. apply in_seq in Hj.
    destruct (win_split e i ltac:(lia)) as [E1 [L1 F1]]. destruct (win_split e j ltac:(lia)) as [E2 [_ F2]]. rewrite <- E in E2. destruct P as [P _]. rewrite <- F1, <- F2. f_equal. exact (P _ _ _ _ _ L1 E1 E2).
  - intros g I. apply in_map_iff in I. destruct I as [i [<- I]]. apply in_seq in I. apply splitWord_gram. apply pair_gram; [exact P|exact L|]. apply win_in. lia.
Qed.
(** A name has at most as many pairs as places. *)
Lemma shared_count lower e k : pairs_once e -> 2 <= length e -> length (filter (hasb lower [2] k) (splitWord [2] e)) <= length (lower k) - 1.
Proof.
  intros P L. replace (length (lower k) - 1) with (length (map (win (lower k)) (seq 0 (length (lower k) - 1)))) by (rewrite map_length, seq_length; reflexivity). apply NoDup_incl_length.
  - apply NoDup_filter. apply splitWord_NoDup.
  - intros g I. apply filter_In in I. destruct I as [I H]. apply splitWord_gram in I. apply (pair_gram e g P L) in I. apply hasb_decides in H. apply gram_pair in H; [|apply I]. apply in_win in H. destruct H as [i [Li ->]]. apply in_map. apply in_seq. lia.
Qed.

(** ** Scores *)
Lemma weigh {A} (h : A -> bool) (x : A -> nat) qe qk W l : (forall g, In g l -> W <= 1 + x g) ->
  length l * qe + (length l - length (filter h l)) * W + sum (fun g => if h g then 1 * (1 + qk + x g) else 0) l <= sum (fun g => 1 * (1 + qe + x g)) l + length (filter h l) * qk
  /\ length (filter h l) <= length l.
Proof.
  induction l as [|g l IH]; intros H; [cbn; lia|]. destruct IH as [IH1 IH2]; [intros y Y; apply H; right; exact Y|]. specialize (H g ltac:(left; reflexivity)). rewrite !sum_cons. cbn [filter length]. destruct (h g); cbn [length]; [|].
  - replace (S (length l) - S (length (filter h l))) with (length l - length (filter h l)) by lia. nia.
  - replace (S (length l) - length (filter h l)) with (S (length l - length (filter h l))) by lia. nia.
Qed.
Definition wins (T N L : nat) : Prop := forall l, l < L -> (l - 1) * (T / l) < (L - 1) * (T / L) + (L - l) * (1 + T / N).
Lemma arithmetic n s L l qe qk W : 2 <= L -> L - 1 <= n -> s <= l - 1 -> l < L -> (l - 1) * qk < (L - 1) * qe + (L - l) * W -> s * qk < n * qe + (n - s) * W.
Proof.
  intros H0 H1 H2 H3 H4. destruct (Nat.eq_dec l 0) as [->|Nz].
  - assert (s = 0) by lia. subst s. rewrite Nat.sub_0_r in *. cbn [Nat.mul Nat.sub] in *. destruct n as [|n]; [lia|]. destruct W as [|W]; [|cbn [Nat.mul]; lia]. destruct qe; [rewrite !Nat.mul_0_r in H4; lia|cbn [Nat.mul]; lia].
  - assert (s * qk <= (l - 1) * qk) by (apply Nat.mul_le_mono_r; exact H2). assert ((L - 1) * qe <= n * qe) by (apply Nat.mul_le_mono_r; exact H1).
    assert ((L - l) * W <= (n - s) * W) by (apply Nat.mul_le_mono_r; lia). lia.
Qed.
Lemma score_beats lower ws e k : NoDup ws -> In e ws -> In k ws -> lower e = e -> outweighs lower (length ws) e k -> scoref lower [2] ws e k < scoref lower [2] ws e e.
Proof.
  intros ND Ie Ik L W. specialize (W (splitWord [2] e) (hasb lower [2]) (splitWord_lists [2] e) (hasb_decides lower [2])). cbv zeta in W.
  unfold scoref. rewrite (count_one ws e ND Ie), (count_one ws k ND Ik). revert W. generalize 1000. intros T A.
  set (x := fun g => T / length (filter (fun w => hasb lower [2] w g) ws)).
  assert (He : forall g, In g (splitWord [2] e) -> hasb lower [2] e g = true) by (intros g G; apply hasb_decides; rewrite L; apply splitWord_gram; exact G).
  assert (Hx : forall g, In g (splitWord [2] e) -> 1 + T / length ws <= 1 + x g).
  { intros g G. unfold x. apply le_n_S. apply Nat.div_le_compat_l. split.
    - assert (In e (filter (fun w => hasb lower [2] w g) ws)) by (apply filter_In; split; [exact Ie|apply He; exact G]). destruct (filter _ ws); [contradiction|cbn; lia].
    - clear. induction ws as [|a ws IH]; [constructor|]. cbn [filter]. destruct (hasb lower [2] a g); cbn [length]; lia. }
  destruct (weigh (hasb lower [2] k) x (T / length e) (T / length k) (1 + T / length ws) (splitWord [2] e) Hx) as [WW _].
  match goal with |- list_sum (map ?f ?l) < list_sum (map ?h ?l) => change (sum f l < sum h l) end.
  assert (E : sum (fun g => if hasb lower [2] e g then 1 * (1 + T / length e + T / length (filter (fun w => hasb lower [2] w g) ws)) else 0) (splitWord [2] e) = sum (fun g => 1 * (1 + T / length e + x g)) (splitWord [2] e)).
  { unfold sum. f_equal. apply map_ext_in. intros g G. rewrite (He g G). reflexivity. }
  rewrite E. clear E. change (sum (fun g => if hasb lower [2] k g then 1 * (1 + T / length k + x g) else 0) (splitWord [2] e) < sum (fun g => 1 * (1 + T / length e + x g)) (splitWord [2] e)). lia.
Qed.
Lemma lists_same sizes e gs gs' : lists_grams sizes e gs -> lists_grams sizes e gs' -> Permutation gs gs'.
Proof. intros [N G] [N' G']. apply NoDup_Permutation; [exact N|exact N'|]. intros g. rewrite G, G'. tauto. Qed.
Lemma filter_length_perm {A} (h h' : A -> bool) l l' : (forall x, h x = h' x) -> Permutation l l' -> length (filter h l) = length (filter h' l').
Proof. intros E P. rewrite (filter_ext _ _ E). apply Permutation_length. apply filter_perm. exact P. Qed.
Lemma decides_same lower sizes h h' k g : decides_gram lower sizes h -> decides_gram lower sizes h' -> h k g = h' k g.
Proof. intros D D'. pose proof (D k g). pose proof (D' k g). destruct (h k g), (h' k g); try reflexivity; exfalso; [assert (false = true) by tauto|assert (false = true) by tauto]; discriminate. Qed.
Definition outweighsb (lower : str -> str) (N : nat) (e k : str) : bool :=
  let n := length (splitWord [2] e) in let m := length (filter (hasb lower [2] k) (splitWord [2] e)) in m * (1000 / length k) <? n * (1000 / length e) + (n - m) * (1 + 1000 / N).
Lemma outweighs_intro lower N e k : (let n := length (splitWord [2] e) in let m := length (filter (hasb lower [2] k) (splitWord [2] e)) in m * (1000 / length k) < n * (1000 / length e) + (n - m) * (1 + 1000 / N)) -> outweighs lower N e k.
Proof.
  intros H gs has LG D. cbv zeta in *. assert (P := lists_same _ _ _ _ LG (splitWord_lists [2] e)). rewrite (Permutation_length P), (filter_length_perm (has k) (hasb lower [2] k) _ _ (fun g => decides_same lower [2] has (hasb lower [2]) k g D (hasb_decides lower [2])) P). exact H.
Qed.
Lemma exact_beats lower ws e k : NoDup ws -> In e ws -> In k ws -> lower e = e -> pairs_once e -> 2 <= length e -> length (lower k) <= length k ->
  length k < length e -> wins 1000 (length ws) (length e) -> scoref lower [2] ws e k < scoref lower [2] ws e e.
Proof.
  intros ND Ie Ik L P L2 Lk Lt W. apply score_beats; try assumption. apply outweighs_intro. cbv zeta. specialize (W (length k) Lt). revert W. generalize 1000. intros T W.
  assert (A := arithmetic (length (splitWord [2] e)) (length (filter (hasb lower [2] k) (splitWord [2] e))) (length e) (length k) (T / length e) (T / length k) (1 + T / length ws) L2 (pairs_count e P L2)).
  specialize (A ltac:(pose proof (shared_count lower e k P L2); lia) Lt W). exact A.
Qed.
Definition table (T W top : nat) : bool := forallb (fun L => forallb (fun l => (l - 1) * (T / l) <? (L - 1) * (T / L) + (L - l) * W) (seq 0 L)) (seq 2 (top - 1)).
Lemma table_wins T W top N L : table T W top = true -> W <= 1 + T / N -> 2 <= L <= top -> wins T N L.
Proof.
  intros H HW HL l Hl. unfold table in H. rewrite forallb_forall in H. specialize (H L ltac:(apply in_seq; lia)). rewrite forallb_forall in H. specialize (H l ltac:(apply in_seq; lia)).
  apply Nat.ltb_lt in H. assert ((L - l) * W <= (L - l) * (1 + T / N)) by (apply Nat.mul_le_mono_l; exact HW). revert H H0. generalize ((l - 1) * (T / l)), ((L - 1) * (T / L)), ((L - l) * W), ((L - l) * (1 + T / N)). intros. lia.
Qed.
Lemma small_wins N L : 1 <= N -> 2 <= L -> small N L -> wins 1000 N L.
Proof.
  intros H1 H2 [[HN HL]|[[HN HL]|[HN HL]]].
  - apply (table_wins 1000 3 20); [vm_compute; reflexivity| |split; assumption]. replace 3 with (1 + 1000 / 500) by (vm_compute; reflexivity). apply le_n_S. apply Nat.div_le_compat_l. split; assumption.
  - apply (table_wins 1000 11 27); [vm_compute; reflexivity| |split; assumption]. replace 11 with (1 + 1000 / 100) by (vm_compute; reflexivity). apply le_n_S. apply Nat.div_le_compat_l. split; assumption.
  - apply (table_wins 1000 21 35); [vm_compute; reflexivity| |split; assumption]. replace 21 with (1 + 1000 / 50) by (vm_compute; reflexivity). apply le_n_S. apply Nat.div_le_compat_l. split; assumption.
Qed.
(** Up to 35 bytes, names of different lengths weigh differently. *)
Definition steps (T top : nat) : bool := forallb (fun L => T / S L <? T / L) (seq 1 top).
Lemma small_35 N L : small N L -> L <= 35.
Proof. intros [[_ H]|[[_ H]|[_ H]]]; lia. Qed.
Lemma no_tie T L l : steps T 35 = true -> 1 <= L <= 35 -> L <= l -> T / l = T / L -> l = L.
Proof.
  intros H HL Hl E. destruct (Nat.eq_dec l L) as [X|X]; [exact X|exfalso]. unfold steps in H. rewrite forallb_forall in H. specialize (H L ltac:(apply in_seq; lia)). apply Nat.ltb_lt in H.
  assert (T / l <= T / S L) by (apply Nat.div_le_compat_l; lia). rewrite E in H0. revert H H0. generalize (T / S L), (T / L). intros. lia.
Qed.

Lemma small_fits (ws : list str) (e : str) : small (length ws) (length e) -> CmSpec.fits ws.
Proof.
  unfold small, CmSpec.fits. generalize (length ws). intros n H.
  assert (K : forall m, n <= m -> (N.of_nat m <= 2 ^ 32)%N -> (N.of_nat n <= 2 ^ 32)%N) by (intros m X Y; eapply N.le_trans; [|exact Y]; lia).
  destruct H as [[H _]|[[H _]|[H _]]]; (eapply K; [exact H|vm_compute; discriminate]).
Qed.
(** ** C63 *)
(** In a store of moderate size, the best match for the exact lower-case name of an entry in which no two adjacent bytes repeat is that
    entry, or one of the same length that has all its pairs of adjacent bytes. *)
Theorem C63_exact_name_matches lower ws e f : NoDup ws -> In e ws -> lower e = e -> no_longer lower ws -> pairs_once e -> 2 <= length e -> small (length ws) (length e) ->
  best_match lower ws e f -> f = e \/ (length f = length e /\ has_pairs_of lower f e).
Proof.
  intros ND Ie L NL P L2 SM [If [SH B]].
  assert (N1 : 1 <= length ws) by (destruct ws; [contradiction|cbn; lia]).
  destruct (best_loses_only_to lower ws [2] e f ND Ie L ltac:(intros ->; cbn in L2; lia) If B) as [->|[Lt|[Q G]]]; [left; reflexivity|exfalso|].
  - pose proof (exact_beats lower ws e f ND Ie If L P L2 (NL f If) Lt (small_wins _ _ N1 L2 SM)) as X.
    pose proof (B e _ _ Ie (proj2 (is_score_iff lower [2] ws e e _) eq_refl) (proj2 (is_score_iff lower [2] ws e f _) eq_refl)) as Y. exact (Nat.lt_irrefl _ (Nat.lt_le_trans _ _ _ X Y)).
  - destruct (le_lt_dec (length e) (length f)) as [Le|Lt].
    + right. split; [apply (no_tie 1000); [vm_compute; reflexivity|pose proof (small_35 _ _ SM); lia|exact Le|exact Q]|].
      intros g X. apply gram_pair; [apply X|]. apply G. apply pair_gram; assumption.
    + exfalso. pose proof (exact_beats lower ws e f ND Ie If L P L2 (NL f If) Lt (small_wins _ _ N1 L2 SM)) as X.
      pose proof (B e _ _ Ie (proj2 (is_score_iff lower [2] ws e e _) eq_refl) (proj2 (is_score_iff lower [2] ws e f _) eq_refl)) as Y. exact (Nat.lt_irrefl _ (Nat.lt_le_trans _ _ _ X Y)).
Qed.
Lemma shows_unique a f c o o' : shows a f c o -> shows a f c o' -> o = o'.
Proof.
  intros [t [T H]] [t' [T' H']]. rewrite (shown_unique _ _ _ T' T) in H'. destruct H as [[B ->]|[B ->]], H' as [[B' ->]|[B' ->]]; reflexivity || contradiction.
Qed.
(** show with that name prints that entry, unless another of the same length has all its pairs. *)
Theorem C63_show_exact_name lower w env groot root es ws a e content o : lower [] = [] ->
  ExpandEnv (getenv env) groot = root -> store_at w root es -> all_entries es ws -> ShowName a = e -> QrCode a = false ->
  entry_content es e content -> lower e = e -> no_longer lower ws -> pairs_once e -> small (length ws) (length e) ->
  (forall k, In k ws -> length k = length e -> has_pairs_of lower k e -> k = e) ->
  Show lower w env groot a o -> shows a e content o.
Proof.
  intros Ll E ST AE N Q EC L NL P SM U H.
  assert (Ie : In e ws) by (apply AE; destruct EC as [c [n [X [_ Y]]]]; exists c, n; auto).
  assert (L2 : 2 <= length e). { destruct EC as [c [n [[Ic _] [_ ->]]]]. unfold rel. apply category_normal in Ic. destruct Ic as [Ic _]. destruct c as [|c0 c]; [contradiction|]. rewrite !app_length. change (length (lit "/")) with 1. cbn [length]. lia. }
  assert (F : CmSpec.fits ws) by (exact (small_fits ws e SM)).
  apply (C35_show_prints_best_entry lower w env groot root es ws a o Ll E ST AE F) in H; [|rewrite N; destruct e; [cbn in L2; lia|discriminate]|exact Q].
  rewrite N in H. destruct H as [[f [c [ts [B [EC' [T H]]]]]]|[NM _]].
  - assert (f = e). { destruct (C63_exact_name_matches lower ws e f (proj1 AE) Ie L NL P L2 SM B) as [X|[X Y]]; [exact X|]. apply U; [apply B|exact X|exact Y]. }
    subst f. rewrite (entry_content_unique es e c content ltac:(apply ST) EC' EC) in T. exists ts. split; [exact T|exact H].
  - exfalso. apply (NM e Ie). apply shares_self. exact L.
Qed.
(** In a store of any size: unless another entry is shorter or has all its pairs. *)
Theorem C63_show_exact_name_any_size lower w env groot root es ws a e content o : lower [] = [] ->
  ExpandEnv (getenv env) groot = root -> store_at w root es -> all_entries es ws -> CmSpec.fits ws -> ShowName a = e -> QrCode a = false ->
  entry_content es e content -> lower e = e ->
  (forall k, In k ws -> k <> e -> length e <= length k /\ exists g, gram [2] e g /\ ~ gram [2] (lower k) g) ->
  Show lower w env groot a o -> shows a e content o.
Proof.
  intros Ll E ST AE F N Q EC L U H.
  assert (Ie : In e ws) by (apply AE; destruct EC as [c [n [X [_ Y]]]]; exists c, n; auto).
  assert (NE : e <> []) by (apply (rel_nonempty es ws e AE Ie)).
  apply (C35_show_prints_best_entry lower w env groot root es ws a o Ll E ST AE F) in H; [|rewrite N; exact NE|exact Q].
  rewrite N in H. destruct H as [[f [c [ts [B [EC' [T H]]]]]]|[NM _]].
  - assert (f = e).
    { destruct (str_dec f e) as [X|X]; [exact X|exfalso]. destruct (U f (proj1 B) X) as [Le [g [G1 G2]]].
      destruct (best_loses_only_to lower ws [2] e f (proj1 AE) Ie L NE (proj1 B) (proj2 (proj2 B))) as [K|[K|[_ K]]]; [contradiction|lia|]. apply G2. apply K. exact G1. }
    subst f. rewrite (entry_content_unique es e c content ltac:(apply ST) EC' EC) in T. exists ts. split; [exact T|exact H].
  - exfalso. apply (NM e Ie). apply shares_self. exact L.
Qed.
(** In any store: if the numbers of pairs show that it outweighs every other entry. *)
Theorem C63_show_exact_name_outweighs lower w env groot root es ws a e content o : lower [] = [] ->
  ExpandEnv (getenv env) groot = root -> store_at w root es -> all_entries es ws -> CmSpec.fits ws -> ShowName a = e -> QrCode a = false ->
  entry_content es e content -> lower e = e -> (forall k, In k ws -> k <> e -> outweighs lower (length ws) e k) ->
  Show lower w env groot a o -> shows a e content o.
Proof.
  intros Ll E ST AE F N Q EC L U H.
  assert (Ie : In e ws) by (apply AE; destruct EC as [c [n [X [_ Y]]]]; exists c, n; auto).
  assert (NE : e <> []) by (apply (rel_nonempty es ws e AE Ie)).
  apply (C35_show_prints_best_entry lower w env groot root es ws a o Ll E ST AE F) in H; [|rewrite N; exact NE|exact Q].
  rewrite N in H. destruct H as [[f [c [ts [B [EC' [T H]]]]]]|[NM _]].
  - assert (f = e).
    { destruct (str_dec f e) as [X|X]; [exact X|exfalso]. pose proof (score_beats lower ws e f (proj1 AE) Ie (proj1 B) L (U f (proj1 B) X)) as X1.
      pose proof (proj2 (proj2 B) e _ _ Ie (proj2 (is_score_iff lower [2] ws e e _) eq_refl) (proj2 (is_score_iff lower [2] ws e f _) eq_refl)) as Y. exact (Nat.lt_irrefl _ (Nat.lt_le_trans _ _ _ X1 Y)). }
    subst f. rewrite (entry_content_unique es e c content ltac:(apply ST) EC' EC) in T. exists ts. split; [exact T|exact H].
  - exfalso. apply (NM e Ie). apply shares_self. exact L.
Qed.
(** A sufficiently shorter entry with all its pairs is shown instead of it. *)
Theorem C63_shadowed_entry_never_shown lower w env groot root es ws a e k o : lower [] = [] ->
  ExpandEnv (getenv env) groot = root -> store_at w root es -> all_entries es ws -> CmSpec.fits ws -> ShowName a = e -> QrCode a = false ->
  In e ws -> In k ws -> lower e = e -> (forall g, gram [2] e g -> gram [2] (lower k) g) -> 1000 / length e < 1000 / length k ->
  Show lower w env groot a o -> exists f content, f <> e /\ entry_content es f content /\ shows a f content o.
Proof.
  intros Ll E ST AE F N Q Ie Ik L G D H. assert (NE : e <> []) by (apply (rel_nonempty es ws e AE Ie)).
  apply (C35_show_prints_best_entry lower w env groot root es ws a o Ll E ST AE F) in H; [|rewrite N; exact NE|exact Q].
  rewrite N in H. destruct H as [[f [c [ts [B [EC' [T H]]]]]]|[NM _]]; [|exfalso; apply (NM e Ie); apply shares_self; exact L].
  exists f, c. split; [|split; [exact EC'|exists ts; auto]]. intros ->. exact (best_shadowed lower ws [2] e k (proj1 AE) Ie Ik L G D (fun v v' => proj2 (proj2 B) k v v' Ik)).
Qed.
(** ** Ties: any best match can be shown *)
Lemma descending_tail e l : descending (e :: l) -> descending l.
Proof. destruct l; [intros; exact I|intros [_ H]; exact H]. Qed.
Lemma descending_out a x b : descending (a ++ x :: b) -> descending (a ++ b).
Proof.
  induction a as [|y a IH]; intros D; [exact (descending_tail _ _ D)|]. assert (D' := IH (descending_tail _ _ D)). cbn [app]. destruct (a ++ b) as [|z t] eqn:E; [exact I|]. split; [|exact D'].
  assert (In z (a ++ b)) by (rewrite E; left; reflexivity). assert (In z (a ++ x :: b)) by (apply in_app_or in H; apply in_or_app; cbn; tauto). apply In_nth_error in H0. destruct H0 as [j J].
  exact (descending_le ((y :: a) ++ x :: b) D 0 (S j) y z ltac:(lia) eq_refl J).
Qed.
Lemma best_can_win lower ws ws' cm q f : Permutation ws ws' -> New lower ws [2] cm -> CmSpec.fits ws' -> ~ crashes cm q -> best_match lower ws' q f -> Closest cm q f.
Proof.
  intros P A F NC [If [SH B]]. destruct (C27_answers cm q 0 NC) as [_ [m [pl [M [R _]]]]]. assert (F' := fits_perm _ _ (Permutation_sym P) F).
  destruct (ranked _ _ _ _ _ _ _ A F' M R) as [_ [D H]].
  assert (I : In (f, scoref lower [2] ws q f) pl) by (apply H; split; [apply (Permutation_in _ (Permutation_sym P)); exact If|split; [exact SH|reflexivity]]).
  apply in_split in I. destruct I as [a [b ->]]. exists m, ((f, scoref lower [2] ws q f) :: a ++ b). split; [exact M|]. split; [|reflexivity]. destruct R as [R _]. split.
  - rewrite <- R. apply Permutation_middle.
  - assert (D' := descending_out _ _ _ D). destruct (a ++ b) as [|[k v] t] eqn:E; [exact I|]. split; [|exact D']. cbn [snd].
    assert (X : In (k, v) (a ++ (f, scoref lower [2] ws q f) :: b)) by (assert (Y : In (k, v) (a ++ b)) by (rewrite E; left; reflexivity); apply in_app_or in Y; apply in_or_app; cbn; tauto).
    apply H in X. destruct X as [Ik [_ ->]]. apply (B k _ _ (Permutation_in _ P Ik)); apply (is_score_perm lower [2] ws ws' q _ _ P); apply is_score_iff; reflexivity.
Qed.
(** Every best match can be what show prints: nothing in the program decides between ties. *)
Theorem C63_show_any_best_entry lower w env groot root es ws a f content : lower [] = [] ->
  ExpandEnv (getenv env) groot = root -> store_at w root es -> all_entries es ws -> CmSpec.fits ws -> ShowName a <> [] -> QrCode a = false ->
  best_match lower ws (ShowName a) f -> entry_content es f content -> exists o, Show lower w env groot a o /\ shows a f content o.
Proof.
  intros Ll E ST AE F NE Q B EC. subst root. destruct (scan_store _ _ _ ST) as [fs [SC [H1 _]]]. specialize (H1 _ (in_order_exists fs)). assert (P := all_entries_perm _ _ _ H1 AE).
  destruct (New_exists lower (concat (map snd fs)) [2]) as [cm A].
  assert (C : Closest cm (ShowName a) f) by (apply (best_can_win lower _ ws cm _ f P A F); [exact (no_crash lower _ cm _ Ll A (fits_perm _ _ (Permutation_sym P) F) NE)|exact B]).
  assert (NF : f <> []) by (apply (rel_nonempty es ws f AE); apply B).
  destruct (entry_file2 w _ es f ST ltac:(apply AE; apply B)) as [_ [c' [EC' [LK OR]]]]. rewrite (entry_content_unique es f c' content ltac:(apply ST) EC' EC) in OR.
  destruct (get_total (show_handler a) w (Join (ExpandEnv (getenv env) groot) f) (lit "Pass '" ++ f ++ lit "'" ++ nl ++ nl, [], [])) as [[[out qr] fq] [e G]].
  exists (show_end a (out ++ error_line e, qr, fq)). split.
  { unfold Show, after_scan, root_of. rewrite SC, (eqs_false _ _ NE). exists (concat (map snd fs)). split; [apply in_order_exists|]. exists cm. split; [exact A|]. right. exists f. split; [exact C|].
    destruct f as [|c0 f]; [contradiction|]. cbv beta iota zeta. rewrite LK. exists out, qr, fq, e. auto. }
  destruct (shown_exists content) as [texts T]. exists texts. split; [exact T|].
  destruct (get_spec _ _ _ _ _ _ _ OR G texts T) as [[Bi [E1 ->]]|[Bi [E1 ->]]]; [left|right]; (split; [exact Bi|]).
  - apply trip in E1. destruct E1 as [-> [-> ->]]. rewrite error_binary. unfold show_end, qr_text. rewrite Q. rewrite <- !app_assoc. reflexivity.
  - rewrite handle_show in E1. apply trip in E1. destruct E1 as [-> [-> ->]]. change (error_line LNil) with (@nil Z). rewrite app_nil_r. unfold show_end, qr_text. rewrite Q. rewrite <- !app_assoc. unfold show_body.
    assert (Ex : forall x y : str, x = y -> Done x [] ENil = Done y [] ENil) by (intros x y ->; reflexivity). apply Ex. repeat f_equal. destruct (LineNumbers a); [reflexivity|]. destruct (Z.ltb_spec 0 (Line a)); [|reflexivity]. destruct (Z.leb_spec (Z.of_nat 1) (Line a)); [reflexivity|lia].
Qed.
(** search with the exact name of an entry lists it, if as many results are asked for as there are entries. *)
Theorem C63_search_exact_name lower w env groot root es ws a e o : lower [] = [] -> ExpandEnv (getenv env) groot = root -> store_at w root es -> all_entries es ws -> CmSpec.fits ws ->
  Search a = e -> In e ws -> lower e = e -> (Z.of_nat (length ws) <= Fuzzy a)%Z -> Content a = [] -> Search_ lower w env groot a o ->
  exists before after, o = Done [] (lines_of (before ++ e :: after)) ENil.
Proof.
  intros Ll E ST AE F N Ie L Fz NC H. assert (NE : e <> []) by (apply (rel_nonempty es ws e AE Ie)).
  destruct (C38_search lower w env groot root es ws a o Ll E ST AE F ltac:(rewrite N; exact NE) ltac:(lia) H) as [res [T [[_ ->]|[X _]]]]; [|contradiction].
  assert (I : In e res); [|apply in_split in I; destruct I as [x [y ->]]; exists x, y; reflexivity]. rewrite N in T. destruct T as [ND [_ [T1 [_ T2]]]].
  destruct (in_dec str_dec e res) as [Y|Y]; [exact Y|exfalso].
  destruct (T2 e _ Ie (shares_self lower [2] e L) Y (proj2 (is_score_iff lower [2] ws e e _) eq_refl)) as [Len _].
  assert (X : length (e :: res) <= length ws); [|cbn [length] in X; lia]. apply NoDup_incl_length; [constructor; assumption|]. intros k [<-|K]; [exact Ie|apply T1; exact K].
Qed.
(** ** list with the name of a category *)
Definition cat_check : bool := forallb (fun c => forallb (fun d => eqs c d || negb (existsb (fun g => existsb (eqs g) (splitWord [2] d)) (splitWord [2] c))
   || (eqs c (lit "sites") && eqs d (lit "devices")) || (eqs c (lit "devices") && eqs d (lit "sites"))) categories) categories.
Lemma category_lower lower c : keeps_lower lower -> In c categories -> lower c = c.
Proof. intros K I. apply K. repeat destruct I as [<-|I]; [..|destruct I]; repeat constructor; vm_compute; discriminate. Qed.
Lemma category_shares lower c d : keeps_lower lower -> In c categories -> In d categories -> shares lower [2] c d ->
  c = d \/ (c = lit "sites" /\ d = lit "devices") \/ (c = lit "devices" /\ d = lit "sites").
Proof.
  intros K Ic Id SH. assert (H : cat_check = true) by (vm_compute; reflexivity). unfold cat_check in H. rewrite forallb_forall in H. specialize (H c Ic). rewrite forallb_forall in H. specialize (H d Id).
  apply shares_dec in SH. rewrite (category_lower lower d K Id) in SH. rewrite SH in H. cbn [negb] in H. rewrite orb_false_r, !orb_true_iff, !andb_true_iff, !eqs_iff in H. tauto.
Qed.
Lemma sum_one {A} (f : A -> nat) l x : In x l -> f x <= sum f l.
Proof. induction l as [|a l IH]; intros H; [contradiction|]. rewrite sum_cons. destruct H as [->|H]; [lia|]. specialize (IH H). lia. Qed.
Lemma pick (h : str -> bool) (x : str -> nat) q g0 l : (forall g, In g l -> h g = true -> g = g0) -> NoDup l -> sum (fun g => if h g then 1 * (1 + q + x g) else 0) l <= 1 + q + x g0.
Proof.
  induction l as [|g l IH]; intros H N; [cbn; lia|]. inversion N as [|? ? N1 N2]; subst. rewrite sum_cons. destruct (h g) eqn:E.
  - assert (g = g0) by (apply H; [left; reflexivity|exact E]). subst g0. assert (Z : sum (fun g => if h g then 1 * (1 + q + x g) else 0) l = 0).
    { assert (K : forall y, In y l -> h y = false) by (intros y Y; destruct (h y) eqn:Ey; [|reflexivity]; exfalso; apply N1; rewrite <- (H y (or_intror Y) Ey); exact Y). clear -K. induction l as [|y l IH]; [reflexivity|]. rewrite sum_cons, (K y (or_introl eq_refl)), IH; [reflexivity|]. intros z Z. apply K. right. exact Z. }
    rewrite Z. lia.
  - apply IH; [|exact N2]. intros y Y. apply H. right. exact Y.
Qed.
Definition shared_es (c d : str) : bool := forallb (fun g => negb (if in_dec str_dec g (splitWord [2] d) then true else false) || eqs g (lit "es")) (splitWord [2] c).
(** Among categories, the one named exactly beats the other sharing "es" with it. *)
Lemma category_beats lower cats c d : keeps_lower lower -> NoDup cats -> In c cats -> In d cats -> (c = lit "sites" /\ d = lit "devices") \/ (c = lit "devices" /\ d = lit "sites") ->
  scoref lower [2] cats c d < scoref lower [2] cats c c.
Proof.
  intros K ND Ic Id CD. unfold scoref. rewrite (count_one cats c ND Ic), (count_one cats d ND Id).
  assert (Lc : lower c = c) by (apply category_lower; [exact K|]; destruct CD as [[-> _]|[-> _]]; vm_compute; tauto).
  assert (Ld : lower d = d) by (apply category_lower; [exact K|]; destruct CD as [[_ ->]|[_ ->]]; vm_compute; tauto).
  assert (SE : shared_es c d = true) by (destruct CD as [[-> ->]|[-> ->]]; vm_compute; reflexivity).
  assert (NE : exists g1, In g1 (splitWord [2] c) /\ g1 <> lit "es" /\ In (lit "es") (splitWord [2] c)).
  { destruct CD as [[-> _]|[-> _]]; [exists (lit "it")|exists (lit "ev")]; (split; [vm_compute; tauto|split; [vm_compute; discriminate|vm_compute; tauto]]). }
  assert (Q : exists qc qd, 1000 / length c = qc /\ 1000 / length d = qd /\ qd < qc + qc + 1 ).
  { destruct CD as [[-> ->]|[-> ->]]; [exists 200, 142|exists 142, 200]; (split; [vm_compute; reflexivity|split; [vm_compute; reflexivity|lia]]). }
  destruct Q as [qc [qd [Qc [Qd QQ]]]]. rewrite Qc, Qd. clear Qc Qd. generalize 1000. intros T.
  set (x := fun g => T / length (filter (fun w => hasb lower [2] w g) cats)).
  match goal with |- list_sum (map ?f ?l) < list_sum (map ?h ?l) => change (sum f l < sum h l) end.
  apply Nat.le_lt_trans with (1 + qd + x (lit "es")).
  - apply (pick (hasb lower [2] d) x qd (lit "es")); [|apply splitWord_NoDup]. intros g G H. unfold shared_es in SE. rewrite forallb_forall in SE. specialize (SE g G). unfold hasb in H. rewrite Ld in H. rewrite H in SE. cbn [negb orb] in SE. apply eqs_iff. exact SE.
  - assert (He : forall g, In g (splitWord [2] c) -> hasb lower [2] c g = true) by (intros g G; apply hasb_decides; rewrite Lc; apply splitWord_gram; exact G).
    assert (E : sum (fun g => if hasb lower [2] c g then 1 * (1 + qc + T / length (filter (fun w => hasb lower [2] w g) cats)) else 0) (splitWord [2] c) = sum (fun g => 1 + qc + x g) (splitWord [2] c)).
    { unfold sum. f_equal. apply map_ext_in. intros g G. rewrite (He g G). unfold x. apply Nat.mul_1_l. }
    rewrite E. destruct NE as [g1 [I1 [N1 I2]]]. apply in_split in I1. destruct I1 as [l1 [l2 El]]. rewrite El.
    rewrite (sum_perm _ _ _ (Permutation_sym (Permutation_middle l1 l2 g1))), sum_cons. assert (I3 : In (lit "es") (l1 ++ l2)) by (rewrite El in I2; apply in_app_or in I2; apply in_or_app; cbn in I2; destruct I2 as [I2|[I2|I2]]; [tauto|contradiction|tauto]).
    pose proof (sum_one (fun g => 1 + qc + x g) _ _ I3). cbv beta in H. lia.
Qed.
(** list with the exact name of a category that has entries lists exactly the entries of that category, in lexical order. *)
Theorem C63_list_exact_category lower w env groot root es c o : lower [] = [] -> keeps_lower lower -> ExpandEnv (getenv env) groot = root -> store_at w root es ->
  (exists name, entry es c name) -> List_ lower w env groot c o ->
  exists l, o = Done [] (lines_of l) ENil /\ StronglySorted (fun a b => str_lt a b = true) l /\ forall f, In f l <-> exists name, entry es c name /\ f = rel c name.
Proof.
  intros Ll K E ST HE H. assert (Cc : In c categories) by (destruct HE as [n [X _]]; exact X). destruct (scan_store _ _ _ ST) as [fs [SC [_ [H2 _]]]]. assert (AC : all_categories es (map fst fs)) by exact H2.
  assert (NE : c <> []) by (apply category_normal in Cc; apply Cc). assert (Ic : In c (map fst fs)) by (apply AC; exact HE). assert (Lc := category_lower lower c K Cc).
  destruct (C38_list_category lower w env groot root es (map fst fs) c o Ll E ST AC NE H) as [[d [l [B [S1 [S2 ->]]]]]|[N _]]; [|exfalso; apply (N c Ic); apply shares_self; exact Lc].
  assert (d = c).
  { assert (Cd : In d categories) by (destruct B as [Id _]; apply AC in Id; destruct Id as [n [X _]]; exact X). destruct (category_shares lower c d K Cc Cd ltac:(apply B)) as [X|X]; [symmetry; exact X|exfalso].
    pose proof (category_beats lower _ c d K (proj1 AC) Ic (proj1 B) X) as Y. pose proof (proj2 (proj2 B) c _ _ Ic (proj2 (is_score_iff _ _ _ _ _ _) eq_refl) (proj2 (is_score_iff _ _ _ _ _ _) eq_refl)) as Z. exact (Nat.lt_irrefl _ (Nat.lt_le_trans _ _ _ Y Z)). }
  subst d. exists l. auto.
Qed.
(** For a category without entries it lists nothing, except that devices and sites stand in for each other. *)
Theorem C63_list_empty_category lower w env groot root es c o : lower [] = [] -> keeps_lower lower -> ExpandEnv (getenv env) groot = root -> store_at w root es ->
  In c (map lit ["people"; "email"; "phone"; "sites"; "devices"; "bank"]%string) -> (forall name, ~ entry es c name) -> List_ lower w env groot c o ->
  (exists d l, (c = lit "sites" /\ d = lit "devices" \/ c = lit "devices" /\ d = lit "sites") /\ (exists name, entry es d name) /\
      o = Done [] (lines_of l) ENil /\ forall f, In f l <-> exists name, entry es d name /\ f = rel d name)
  \/ (o = Done [] [] ENil /\ forall d, (c = lit "sites" /\ d = lit "devices" \/ c = lit "devices" /\ d = lit "sites") -> forall name, ~ entry es d name).
Proof.
  intros Ll K E ST Cc NE0 H. change (map lit _) with categories in Cc. destruct (scan_store _ _ _ ST) as [fs [SC [_ [H2 _]]]]. assert (AC : all_categories es (map fst fs)) by exact H2.
  assert (NE : c <> []) by (apply category_normal in Cc; apply Cc). 
  destruct (C38_list_category lower w env groot root es (map fst fs) c o Ll E ST AC NE H) as [[d [l [B [S1 [S2 ->]]]]]|[N ->]].
  - left. exists d, l. assert (Hd : exists name, entry es d name) by (apply AC; apply B). assert (Cd : In d categories) by (destruct Hd as [n [X _]]; exact X).
    destruct (category_shares lower c d K Cc Cd ltac:(apply B)) as [X|X]; [exfalso; subst d; destruct Hd as [n X]; exact (NE0 n X)|]. auto.
  - right. split; [reflexivity|]. intros d CD n En. apply (N d); [apply AC; exists n; exact En|]. apply shares_dec. rewrite (category_lower lower d K ltac:(destruct En as [X _]; exact X)). destruct CD as [[-> ->]|[-> ->]]; vm_compute; reflexivity.
Qed.
(** ** show after a history of inserts *)
Theorem C63_show_after_inserts lower w rs es reqs env groot w' ws a c n d o : lower [] = [] -> rs <> [] -> Forall normal rs -> wfs (tree w) -> store_at w (abs_path rs) es -> Forall (servable w rs) reqs ->
  ExpandEnv (getenv env) groot = abs_path rs -> inserts w rs reqs = (w', true) ->
  last_request reqs c n d -> In c (map lit ["people"; "email"; "phone"; "sites"; "devices"; "bank"]%string) -> n <> lit ".DS_Store" ->
  (forall es', store_at w' (abs_path rs) es' -> all_entries es' ws) -> ShowName a = rel c n -> QrCode a = false ->
  lower (rel c n) = rel c n -> no_longer lower ws -> pairs_once (rel c n) -> small (length ws) (length (rel c n)) ->
  (forall k, In k ws -> length k = length (rel c n) -> has_pairs_of lower k (rel c n) -> k = rel c n) ->
  Show lower w' env groot a o -> shows a (rel c n) d o.
Proof.
  intros Ll Nr Fr W ST F E R LR Ic Nn AE SN Q L NL P SM U H. destruct (C61_history w rs es reqs Nr Fr W ST F) as [w1 [es' [R1 [ST' UP]]]]. rewrite R in R1. injection R1 as <-.
  assert (EC : entry_content es' (rel c n) d). { assert (X : holds es' c n d) by (apply UP; left; exact LR). exists c, n. split; [|split; [exact X|reflexivity]]. split; [exact Ic|]. split; [exact Nn|]. destruct X as [s X]. exists s, d. exact X. }
  exact (C63_show_exact_name lower w' env groot (abs_path rs) es' ws a (rel c n) d o Ll E ST' (AE es' ST') SN Q EC L NL P SM U H).
Qed.
(** ** Cases *)
Definition vault5 : list (str * Node) := [(lit "sites", Dir [(lit "aba", File (lit "one")); (lit "abab", File (lit "two"))])].
Definition vault6 : list (str * Node) := [(lit "sites", Dir [(lit "abcadea", File (lit "one")); (lit "adeabca", File (lit "two"))])].
Definition world5 : World := {| tree := [(lit "vault", Dir vault5)]; cwd := [] |}.
Definition world6 : World := {| tree := [(lit "vault", Dir vault6)]; cwd := [] |}.
Lemma vault5_store : store_at world5 (lit "/vault") vault5 /\ all_entries vault5 [lit "sites/aba"; lit "sites/abab"].
Proof.
  assert (ST : store_at world5 (lit "/vault") vault5).
  { repeat split; try (vm_compute; congruence). constructor; [repeat split; cbn; intuition discriminate| |constructor|repeat constructor]. constructor. constructor; [repeat split; cbn; intuition discriminate|constructor| |repeat constructor; vm_compute; reflexivity]. constructor; [repeat split; cbn; intuition discriminate|constructor|constructor|repeat constructor]. }
  split; [exact ST|]. destruct (scan_store _ _ _ ST) as [fs [SC [H _]]]. assert (X : Scan world5 (lit "/vault") = Scanned [(lit "sites", [lit "sites/aba"; lit "sites/abab"])]) by (vm_compute; reflexivity). rewrite X in SC. injection SC as <-. apply H. eexists. split; [apply Permutation_refl|reflexivity].
Qed.
Lemma vault6_store : store_at world6 (lit "/vault") vault6 /\ all_entries vault6 [lit "sites/abcadea"; lit "sites/adeabca"].
Proof.
  assert (ST : store_at world6 (lit "/vault") vault6).
  { repeat split; try (vm_compute; congruence). constructor; [repeat split; cbn; intuition discriminate| |constructor|repeat constructor]. constructor. constructor; [repeat split; cbn; intuition discriminate|constructor| |repeat constructor; vm_compute; reflexivity]. constructor; [repeat split; cbn; intuition discriminate|constructor|constructor|repeat constructor]. }
  split; [exact ST|]. destruct (scan_store _ _ _ ST) as [fs [SC [H _]]]. assert (X : Scan world6 (lit "/vault") = Scanned [(lit "sites", [lit "sites/abcadea"; lit "sites/adeabca"])]) by (vm_compute; reflexivity). rewrite X in SC. injection SC as <-. apply H. eexists. split; [apply Permutation_refl|reflexivity].
Qed.
Definition pairs_onceb (s : str) : bool := let is := seq 0 (length s - 1) in
  forallb (fun i => negb (blank (win s i)) && forallb (fun j => (i =? j) || negb (eqs (win s i) (win s j))) is) is.
Lemma win_at s a g b : length g = 2 -> s = a ++ g ++ b -> win s (length a) = g /\ S (length a) < length s /\ a = firstn (length a) s.
Proof.
  intros L ->. split; [|split; [rewrite !app_length; lia|]].
  - unfold win. rewrite skipn_app, skipn_all, Nat.sub_diag. cbn [skipn app]. rewrite firstn_app, <- L, firstn_all, Nat.sub_diag. cbn [firstn]. apply app_nil_r.
  - rewrite firstn_app, Nat.sub_diag, firstn_all. cbn [firstn]. symmetry. apply app_nil_r.
Qed.
Lemma pairs_onceb_ok s : pairs_onceb s = true -> pairs_once s.
Proof.
  unfold pairs_onceb. cbv zeta. intros H. rewrite forallb_forall in H. split.
  - intros g a b a' b' L E E'. destruct (win_at s a g b L E) as [W [Li Fa]]. destruct (win_at s a' g b' L E') as [W' [Li' Fa']].
    specialize (H (length a) ltac:(apply in_seq; lia)). apply andb_true_iff in H. destruct H as [_ H]. rewrite forallb_forall in H. specialize (H (length a') ltac:(apply in_seq; lia)).
    apply orb_true_iff in H. destruct H as [H|H]; [apply Nat.eqb_eq in H; rewrite Fa, Fa', H; reflexivity|]. rewrite W, W', eqs_refl in H. discriminate.
  - intros g [L [a [b E]]]. destruct (win_at s a g b L E) as [W [Li _]]. specialize (H (length a) ltac:(apply in_seq; lia)). apply andb_true_iff in H. destruct H as [H _]. rewrite W in H. apply negb_true_iff. exact H.
Qed.
(** The claim that the exact name of an entry always shows that entry is false: here the other one is shown, always. *)
Theorem C63_exact_name_refuted : exists w es ws e, store_at w (lit "/vault") es /\ all_entries es ws /\ In e ws /\ ascii_lower e = e /\
  forall env a o, ShowName a = e -> QrCode a = false -> Show ascii_lower w env (lit "/vault") a o ->
    exists f content, f <> e /\ entry_content es f content /\ shows a f content o.
Proof.
  exists world5, vault5, [lit "sites/aba"; lit "sites/abab"], (lit "sites/abab"). destruct vault5_store as [ST AE]. split; [exact ST|]. split; [exact AE|]. split; [right; left; reflexivity|]. split; [reflexivity|].
  intros env a o N Q H. apply (C63_shadowed_entry_never_shown ascii_lower world5 env (lit "/vault") (lit "/vault") vault5 _ a (lit "sites/abab") (lit "sites/aba") o eq_refl eq_refl ST AE); [vm_compute; discriminate|exact N|exact Q|right; left; reflexivity|left; reflexivity|reflexivity| | |exact H].
  - intros g G. apply splitWord_gram in G. apply splitWord_gram. revert G. vm_compute. tauto.
  - apply Nat.ltb_lt. vm_compute. reflexivity.
Qed.
(** Nor is it settled for names without repeated pairs: another entry of the same length with the same pairs ties, and either can be shown. *)
Theorem C63_same_pairs_refuted : exists w es ws e f, store_at w (lit "/vault") es /\ all_entries es ws /\ In e ws /\ ascii_lower e = e /\ pairs_once e /\ small (length ws) (length e) /\ f <> e /\
  forall env a, ShowName a = e -> QrCode a = false ->
    (exists content o, entry_content es e content /\ shows a e content o /\ Show ascii_lower w env (lit "/vault") a o) /\
    (exists content o, entry_content es f content /\ shows a f content o /\ Show ascii_lower w env (lit "/vault") a o).
Proof.
  exists world6, vault6, [lit "sites/abcadea"; lit "sites/adeabca"], (lit "sites/abcadea"), (lit "sites/adeabca"). destruct vault6_store as [ST AE]. split; [exact ST|]. split; [exact AE|]. split; [left; reflexivity|]. split; [reflexivity|].
  split; [apply pairs_onceb_ok; vm_compute; reflexivity|]. split; [right; right; split; cbn; lia|]. split; [vm_compute; discriminate|]. intros env a N Q.
  assert (B : forall f, In f [lit "sites/abcadea"; lit "sites/adeabca"] -> best_match ascii_lower [lit "sites/abcadea"; lit "sites/adeabca"] (lit "sites/abcadea") f).
  { intros f I. split; [exact I|]. split; [apply shares_dec; destruct I as [<-|[<-|[]]]; vm_compute; reflexivity|]. intros k v v' Ik S1 S2. rewrite is_score_iff in S1, S2. apply Nat.leb_le. rewrite S1, S2. destruct I as [<-|[<-|[]]], Ik as [<-|[<-|[]]]; vm_compute; reflexivity. }
  assert (C : forall n d, In (n, File d) [(lit "abcadea", File (lit "one")); (lit "adeabca", File (lit "two"))] -> n <> lit ".DS_Store" -> entry_content vault6 (rel (lit "sites") n) d).
  { intros n d I Nn. exists (lit "sites"), n. split; [|split; [|reflexivity]].
    - split; [vm_compute; tauto|]. split; [exact Nn|]. eexists. exists d. split; [left; reflexivity|exact I].
    - eexists. split; [left; reflexivity|exact I]. }
  split.
  - pose proof (C _ _ (or_introl eq_refl) ltac:(vm_compute; discriminate)) as EC. destruct (C63_show_any_best_entry ascii_lower world6 env (lit "/vault") (lit "/vault") vault6 _ a (lit "sites/abcadea") (lit "one") eq_refl eq_refl ST AE) as [o [X Y]]; [vm_compute; discriminate|rewrite N; discriminate|exact Q|rewrite N; apply B; left; reflexivity|exact EC|]. exists (lit "one"), o. split; [exact EC|]. split; [exact Y|exact X].
  - pose proof (C _ _ (or_intror (or_introl eq_refl)) ltac:(vm_compute; discriminate)) as EC. destruct (C63_show_any_best_entry ascii_lower world6 env (lit "/vault") (lit "/vault") vault6 _ a (lit "sites/adeabca") (lit "two") eq_refl eq_refl ST AE) as [o [X Y]]; [vm_compute; discriminate|rewrite N; discriminate|exact Q|rewrite N; apply B; right; left; reflexivity|exact EC|]. exists (lit "two"), o. split; [exact EC|]. split; [exact Y|exact X].
Qed.
(** Names that meet the conditions of C63_show_exact_name_outweighs and C63_show_exact_name, and what is printed. *)
Lemma shown_one t : t <> [] -> ~ In 10%Z t -> length t < 100 -> (forall a, a ++ [13%Z] <> t) -> shown t [t].
Proof.
  intros N1 N2 L C. exists [t], [t]. split; [apply fl_last; assumption|]. split.
  - apply rd_line; [|constructor]. lia.
  - constructor; [right; split; [reflexivity|]; intros a E; exact (C a (eq_sym E))|constructor].
Qed.
Lemma ends13 t : (match rev t with 13%Z :: _ => false | _ => true end) = true -> forall a, a ++ [13%Z] <> t.
Proof. intros H a E. rewrite <- E, rev_app_distr in H. discriminate. Qed.
Example ex_exact_name env o : Show ascii_lower world1 env (lit "/vault") {| LineNumbers := false; Line := 0; Field := []; QrCode := false; ShowName := lit "sites/github" |} o ->
  o = Done (lit "Pass 'sites/github'" ++ eol ++ eol ++ lit "pw2" ++ eol) [] ENil.
Proof.
  intros H. apply (C63_show_exact_name_outweighs ascii_lower world1 env (lit "/vault") (lit "/vault") vault _ {| LineNumbers := false; Line := 0; Field := []; QrCode := false; ShowName := lit "sites/github" |} (lit "sites/github") (lit "pw2") o eq_refl eq_refl vault_store vault_entries) in H.
  - assert (T : shown (lit "pw2") [lit "pw2"]) by (apply shown_one; [discriminate|cbn; intuition discriminate|cbn; lia|apply ends13; vm_compute; reflexivity]).
    destruct H as [ts [T' H]]. rewrite (shown_unique _ _ _ T' T) in H. destruct H as [[B _]|[_ ->]]; [cbn in B; intuition discriminate|]. reflexivity.
  - vm_compute. discriminate.
  - reflexivity.
  - reflexivity.
  - exists (lit "sites"), (lit "github"). split; [|split; [|reflexivity]].
    + split; [vm_compute; tauto|]. split; [discriminate|]. eexists. exists (lit "pw2"). split; [right; left; reflexivity|right; left; reflexivity].
    + eexists. split; [right; left; reflexivity|right; left; reflexivity].
  - reflexivity.
  - intros k I N. apply outweighs_intro. cbv zeta. apply Nat.ltb_lt. destruct I as [<-|[<-|[]]]; [vm_compute; reflexivity|contradiction].
Qed.
Example ex_exact_name_small env o : Show ascii_lower world1 env (lit "/vault") {| LineNumbers := false; Line := 0; Field := []; QrCode := false; ShowName := lit "bank/abn" |} o ->
  o = Done (lit "Pass 'bank/abn'" ++ eol ++ eol ++ lit "pw" ++ eol) [] ENil.
Proof.
  intros H. apply (C63_show_exact_name ascii_lower world1 env (lit "/vault") (lit "/vault") vault _ {| LineNumbers := false; Line := 0; Field := []; QrCode := false; ShowName := lit "bank/abn" |} (lit "bank/abn") (lit "pw") o eq_refl eq_refl vault_store vault_entries) in H.
  - assert (T : shown (lit "pw") [lit "pw"]) by (apply shown_one; [discriminate|cbn; intuition discriminate|cbn; lia|apply ends13; vm_compute; reflexivity]).
    destruct H as [ts [T' H]]. rewrite (shown_unique _ _ _ T' T) in H. destruct H as [[B _]|[_ ->]]; [cbn in B; intuition discriminate|]. reflexivity.
  - reflexivity.
  - reflexivity.
  - exists (lit "bank"), (lit "abn"). split; [|split; [|reflexivity]].
    + split; [vm_compute; tauto|]. split; [discriminate|]. eexists. exists (lit "pw"). split; [left; reflexivity|left; reflexivity].
    + eexists. split; [left; reflexivity|left; reflexivity].
  - reflexivity.
  - intros k _. unfold ascii_lower. rewrite map_length. apply le_n.
  - apply pairs_onceb_ok. vm_compute. reflexivity.
  - right; right. split; cbn; lia.
  - intros k [<-|[<-|[]]] X; [reflexivity|vm_compute in X; discriminate X].
Qed.
Example ex_exact_category lower env o : lower [] = [] -> keeps_lower lower -> List_ lower world1 env (lit "/vault") (lit "bank") o -> exists l, o = Done [] (lines_of l) ENil /\ In (lit "bank/abn") l.
Proof.
  intros Ll K H. destruct (C63_list_exact_category lower world1 env (lit "/vault") (lit "/vault") vault (lit "bank") o Ll K eq_refl vault_store) as [l [E [_ I]]]; [|exact H|].
  - exists (lit "abn"). split; [vm_compute; tauto|]. split; [discriminate|]. eexists. eexists. split; [left; reflexivity|left; reflexivity].
  - exists l. split; [exact E|]. apply I. exists (lit "abn"). split; [|reflexivity]. split; [vm_compute; tauto|]. split; [discriminate|]. eexists. eexists. split; [left; reflexivity|left; reflexivity].
Qed.
Example ex_keeps_lower : keeps_lower ascii_lower.
Proof.
  intros s H. unfold ascii_lower. rewrite <- (map_id s) at 2. apply map_ext_in. intros b I. rewrite Forall_forall in H. specialize (H b I). unfold lower1. destruct (Z.leb_spec 65 b), (Z.leb_spec b 90); cbn [andb]; lia.
Qed.
(** The history of C61's case: afterwards sites/new meets the conditions of C63_show_after_inserts. *)
Example ex_show_after_inserts : exists w' ws, inserts world3 [lit "vault"] history3 = (w', true) /\ (forall es', store_at w' (abs_path [lit "vault"]) es' -> all_entries es' ws) /\
  ascii_lower (rel (lit "sites") (lit "new")) = rel (lit "sites") (lit "new") /\ no_longer ascii_lower ws /\ pairs_once (rel (lit "sites") (lit "new")) /\ small (length ws) (length (rel (lit "sites") (lit "new"))) /\
  (forall k, In k ws -> length k = length (rel (lit "sites") (lit "new")) -> has_pairs_of ascii_lower k (rel (lit "sites") (lit "new")) -> k = rel (lit "sites") (lit "new")).
Proof.
  eexists. exists [lit "bank/abn"; lit "sites/github"; lit "sites/new"]. split; [vm_compute; reflexivity|]. split; [|split; [reflexivity|split; [intros k _; unfold ascii_lower; rewrite map_length; apply le_n|split; [apply pairs_onceb_ok; vm_compute; reflexivity|split; [right; right; split; cbn; lia|]]]]].
  - intros es' ST. destruct (scan_store _ _ _ ST) as [fs [SC [H _]]]. vm_compute in SC. injection SC as <-. apply H. eexists. split; [apply Permutation_refl|vm_compute; reflexivity].
  - intros k [<-|[<-|[<-|[]]]] X; [vm_compute in X; discriminate X|vm_compute in X; discriminate X|reflexivity].
Qed.

Print Assumptions C63_exact_name_matches.
Print Assumptions C63_show_exact_name.
Print Assumptions C63_show_exact_name_any_size.
Print Assumptions C63_show_exact_name_outweighs.
Print Assumptions C63_shadowed_entry_never_shown.
Print Assumptions C63_show_any_best_entry.
Print Assumptions C63_search_exact_name.
Print Assumptions C63_list_exact_category.
Print Assumptions C63_list_empty_category.
Print Assumptions C63_show_after_inserts.
Print Assumptions C63_exact_name_refuted.
Print Assumptions C63_same_pairs_refuted.
