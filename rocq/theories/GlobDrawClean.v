(** * Proofs for C72: the characters of a matcher are those of the pattern and the separators. *)
From Coq Require Import String.
From Coq Require Import ZArith Arith List Bool Lia DecimalString HexadecimalString.
From Verif Require Import Utf8 GoStr GlobLex GlobMatch GlobCompile GlobSpec GlobGramSpec GlobFactor GlobIndexSpec GlobLen GlobTool GlobDraw GlobDrawSpec.
Import ListNotations.
Open Scope nat_scope.

Definition ok (c : Z) : Prop := c <> percent /\ c <> quote /\ c <> backslash.
Definition fine (s : list Z) : Prop := Forall ok s.
Lemma fine_app a b : fine (a ++ b) <-> fine a /\ fine b.
Proof. apply Forall_app. Qed.
(** ** Encoding *)
Lemma ok_big c : (128 <= c)%Z -> ok c.
Proof. unfold ok, percent, quote, backslash. lia. Qed.
Lemma encode_fine r : ok r -> fine (encode r).
Proof.
  intros O. unfold encode, fine. destruct ((r <? 0) || (r >? 1114111) || surrogate r)%Z eqn:Q.
  - repeat constructor; apply ok_big; vm_compute; discriminate.
  - rewrite !orb_false_iff in Q. destruct Q as [[Q1 Q2] _]. apply Z.ltb_ge in Q1. rewrite Z.gtb_ltb in Q2. apply Z.ltb_ge in Q2.
    destruct (Z.ltb_spec r 128); [constructor; [exact O|constructor]|].
    assert (P : forall k, (0 < k)%Z -> (0 <= r / k)%Z) by (intros k K; apply Z.div_pos; lia). assert (M : forall x, (0 <= x mod 64)%Z) by (intros x; apply Z.mod_pos_bound; lia).
    destruct (Z.ltb_spec r 2048); [repeat constructor; apply ok_big; pose proof (P 64%Z); pose proof (M r); lia|].
    destruct (Z.ltb_spec r 65536); repeat constructor; apply ok_big; try (match goal with |- (128 <= _ + r / ?k)%Z => pose proof (P k) end); try match goal with |- context [(?x mod 64)%Z] => pose proof (M x) end; lia.
Qed.
Lemma text_fine rs : fine rs -> fine (utf8 rs).
Proof. unfold utf8. induction 1 as [|r rs O F IH]; [constructor|]. cbn [map concat]. apply fine_app. split; [apply encode_fine, O|exact IH]. Qed.
Lemma encode_fine_inv r : fine (encode r) -> ok r.
Proof.
  intros F. destruct (Z.leb_spec 0 r); [|unfold ok, percent, quote, backslash; lia]. destruct (Z.ltb_spec r 128); [|unfold ok, percent, quote, backslash; lia].
  assert (SU : surrogate r = false) by (unfold surrogate, in_range; destruct (Z.leb_spec 55296 r); [lia|reflexivity]).
  unfold encode in F. destruct (Z.ltb_spec r 0); [lia|]. rewrite Z.gtb_ltb in F. destruct (Z.ltb_spec 1114111 r); [lia|]. rewrite SU in F. cbn [orb] in F. destruct (Z.ltb_spec r 128); [|lia]. inversion F; assumption.
Qed.
(** ** Matchers *)
Inductive clean : Matcher -> Prop :=
  | c_text t : fine t -> clean (MText t) | c_any e : fine e -> clean (MAny e) | c_super : clean MSuper | c_single e : fine e -> clean (MSingle e)
  | c_list l n : fine l -> clean (MList l n) | c_range a b n : ok a -> ok b -> clean (MRange a b n)
  | c_nothing : clean MNothing | c_min n : clean (MMin n) | c_max n : clean (MMax n) | c_contains t n : fine t -> clean (MContains t n)
  | c_prefix t : fine t -> clean (MPrefix t) | c_suffix t : fine t -> clean (MSuffix t) | c_prefixany t e : fine t -> fine e -> clean (MPrefixAny t e)
  | c_suffixany t e : fine t -> fine e -> clean (MSuffixAny t e) | c_ps p q : fine p -> fine q -> clean (MPrefixSuffix p q)
  | c_anyof ms : Forall clean ms -> clean (MAnyOf ms)
  | c_every ms : Forall clean ms -> clean (MEveryOf ms)
  | c_row ms len : Forall clean ms -> clean (MRow ms len)
  | c_btree v l r ll rl len : clean v -> (forall x, l = Some x -> clean x) -> (forall x, r = Some x -> clean x) -> clean (MBTree v l r ll rl len).
Lemma optimize_clean m : clean m -> clean (optimizeMatcher m).
Proof.
  induction m as [m IH] using part_ind. intros B. destruct B as [t F|e F| |e F|l n F|x y n Ox Oy| |n|n|t n F|t F|t F|t e F G|t e F G|p q F G|ms F|ms F|ms len F|v l r ll rl len Bv Bl Br]; try (constructor; assumption).
  - destruct e; constructor. exact F.
  - destruct l as [|c [|]], n; try (constructor; assumption). cbn [optimizeMatcher]. constructor. apply encode_fine. inversion F; assumption.
  - destruct ms as [|x [|]]; try (constructor; assumption). inversion F; assumption.
  - cbn [optimizeMatcher]. set (l' := match l with Some x => Some (optimizeMatcher x) | None => None end). set (r' := match r with Some x => Some (optimizeMatcher x) | None => None end).
    assert (HL : forall x, l' = Some x -> clean x) by (unfold l'; intros x E; destruct l as [y|]; [|discriminate]; injection E as <-; apply IH; [right; left; reflexivity|apply Bl; reflexivity]).
    assert (HR : forall x, r' = Some x -> clean x) by (unfold r'; intros x E; destruct r as [y|]; [|discriminate]; injection E as <-; apply IH; [right; right; reflexivity|apply Br; reflexivity]).
    clearbody l' r'. assert (K : clean (MBTree v l' r' ll rl len)) by (constructor; assumption). destruct v; try exact K.
    assert (T : fine s) by (inversion Bv; assumption).
    destruct l' as [[]|], r' as [[]|]; try exact K; repeat match goal with
      | H : forall x, Some ?m = Some x -> clean x |- _ => specialize (H m eq_refl); inversion H; subst; clear H
      | H : forall x, None = Some x -> clean x |- _ => clear H end; constructor; assumption.
Qed.
Lemma glue_clean ms m : Forall clean ms -> glueMatchers ms = Some m -> clean m.
Proof.
  intros F. unfold glueMatchers. destruct (glueMatchersAsEvery ms) as [x|] eqn:EV.
  - intros E. injection E as <-. unfold glueMatchersAsEvery in EV. destruct (length ms <=? 1); [discriminate|]. destruct ms as [|m0 ms0]; [discriminate|]. destruct (glue_kind m0) as [[sep k0]|] eqn:GK; [|discriminate]. destruct (glue_kinds sep (m0 :: ms0)) as [ks|]; [|discriminate]. cbv zeta in EV.
    assert (FS : fine sep). { assert (C : clean m0) by (inversion F; assumption). destruct C; cbn [glue_kind] in GK; try discriminate; try (injection GK as <- _; first [assumption|constructor]); destruct n; try discriminate; injection GK as <- _; assumption. }
    destruct (existsb is_super ks && negb (existsb is_any ks) && negb (existsb is_one ks)); [injection EV as <-; constructor|].
    destruct (existsb is_any ks && negb (existsb is_super ks) && negb (existsb is_one ks)); [injection EV as <-; constructor; exact FS|].
    destruct ((existsb is_any ks || existsb is_super ks) && (0 <? length (filter is_one ks)) && (length sep =? 0)); [injection EV as <-; constructor|]. injection EV as <-.
    constructor. apply Forall_app. split; repeat match goal with |- context [if ?c then _ else _] => destruct c end; repeat constructor; apply text_fine, FS.
  - unfold glueMatchersAsRow. destruct (length ms <=? 1); [discriminate|]. destruct (existsb _ ms); [discriminate|]. intros E. injection E as <-. constructor. exact F.
Qed.
Lemma minimize_clean : forall fuel ms, Forall clean ms -> Forall clean (minimize_f fuel ms).
Proof.
  induction fuel as [|f IH]; intros ms F; [exact F|]. cbn [minimize_f].
  assert (G : forall ps b, match b with Some (d, _, _) => clean d | None => True end -> match fold_left (consider ms) ps b with Some (d, _, _) => clean d | None => True end).
  { induction ps as [|[l r] ps IHp]; intros b Hb; [exact Hb|]. cbn [fold_left]. apply IHp. unfold consider. destruct (glueMatchers _) as [g|] eqn:G; [|exact Hb].
    assert (Bg : clean g) by (apply (glue_clean _ _ (Forall_firstn' clean (r - l) _ (Forall_skipn' clean l _ F)) G)). destruct b as [[[d dl] dr]|]; [|exact Bg]. destruct (_ || _); [exact Bg|exact Hb]. }
  specialize (G (slices (length ms)) None I). destruct (fold_left _ _ _) as [[[d l] r]|]; [|exact F].
  assert (N : Forall clean (firstn l ms ++ d :: skipn r ms)) by (apply Forall_app; split; [apply Forall_firstn', F|constructor; [exact G|apply Forall_skipn', F]]). destruct (_ =? _); [exact N|apply IH, N].
Qed.
Lemma new_btree_clean v l r : clean v -> (forall x, l = Some x -> clean x) -> (forall x, r = Some x -> clean x) -> clean (NewBTree v l r).
Proof. intros. unfold NewBTree. constructor; auto. Qed.
Lemma compile_clean : forall fuel ms m, Forall clean ms -> compileMatchers_f fuel ms = Some m -> clean m.
Proof.
  induction fuel as [|f IH]; intros ms m F E; [discriminate|]. cbn [compileMatchers_f] in E. destruct ms as [|m0 rest]; [discriminate|]. destruct rest as [|m1 rest]; [injection E as <-; inversion F; assumption|]. set (ms := m0 :: m1 :: rest) in *.
  destruct (glueMatchers ms) as [g|] eqn:G; [injection E as <-; exact (glue_clean _ _ F G)|]. destruct (longest ms 0 (-1)%Z None) as [[idx val]|] eqn:LG.
  - destruct (longest_in _ _ _ _ _ _ LG) as [H|H]; [discriminate|]. assert (Bv : clean val) by (rewrite Forall_forall in F; apply F, H).
    destruct (match firstn idx ms with [] => Some None | _ => _ end) as [l'|] eqn:EL; [|discriminate]. destruct (match skipn (S idx) ms with [] => Some None | _ => _ end) as [r'|] eqn:ER; [|discriminate]. injection E as <-. apply new_btree_clean; [exact Bv| |].
    + intros x ->. pose proof (Forall_firstn' clean idx _ F) as Fl. destruct (firstn idx ms) as [|y ys]; [discriminate|]. destruct (compileMatchers_f f (y :: ys)) as [z|] eqn:C; [|discriminate]. injection EL as <-. exact (IH _ _ Fl C).
    + intros x ->. pose proof (Forall_skipn' clean (S idx) _ F) as Fl. destruct (skipn (S idx) ms) as [|y ys]; [discriminate|]. destruct (compileMatchers_f f (y :: ys)) as [z|] eqn:C; [|discriminate]. injection ER as <-. exact (IH _ _ Fl C).
  - destruct (compileMatchers_f f (m1 :: rest)) as [r|] eqn:C; [|discriminate]. injection E as <-. inversion F as [|? ? F1 F2]; subst. apply new_btree_clean; [exact F1|discriminate|]. intros x H. injection H as <-. exact (IH _ _ F2 C).
Qed.
(** ** Syntax trees *)
Inductive nclean : Node -> Prop :=
  | nc_nothing : nclean NNothing | nc_pattern ns : Forall nclean ns -> nclean (NPattern ns) | nc_list b c : fine (runes c) -> nclean (NList b c)
  | nc_range b l h : ok l -> ok h -> nclean (NRange b l h) | nc_text t : fine t -> nclean (NText t) | nc_any : nclean NAny | nc_super : nclean NSuper
  | nc_single : nclean NSingle | nc_anyof ns : Forall nclean ns -> nclean (NAnyOf ns).
Lemma children_clean n : nclean n -> Forall nclean (children n).
Proof. destruct 1; cbn [children]; try constructor; assumption. Qed.
Lemma factored_clean ch n' : minimizeTreeAnyOf ch = Some n' -> Forall nclean ch -> nclean n'.
Proof.
  unfold minimizeTreeAnyOf. destruct (negb _); [discriminate|]. destruct (commonChildren ch) as [cl cr] eqn:CC. destruct ((length cl =? 0) && (length cr =? 0)) eqn:Z0; [discriminate|]. intros E F.
  assert (NE : cl <> [] \/ cr <> []) by (destruct cl; [destruct cr; [discriminate|right; discriminate]|left; discriminate]).
  destruct (common_spec _ _ _ CC NE) as [L2 CS]. destruct ch as [|c0 ch0]; [cbn in L2; lia|].
  assert (CL : Forall nclean cl /\ Forall nclean cr).
  { inversion CS as [|? ? [Le Fi] _]; subst. pose proof (fits_split _ _ _ Le Fi) as SP. assert (H : Forall nclean (children c0)) by (apply children_clean; inversion F; assumption). rewrite SP, !Forall_app in H. tauto. }
  destruct CL as [CL CR]. set (any := fold_left _ _ _) in E.
  assert (A : Forall nclean any).
  { apply Forall_forall. intros n I. unfold any in I. apply (fold_unique_in (rest_node (length cl) (length cr))) in I. destruct I as [[]|[c [I ->]]]. unfold rest_node.
    rewrite Forall_forall in F. pose proof (Forall_firstn' nclean (length (children c) - length cr - length cl) _ (Forall_skipn' nclean (length cl) _ (children_clean c (F c I)))) as H. destruct (firstn _ _); constructor. exact H. }
  clearbody any. injection E as <-. constructor. rewrite !Forall_app. repeat split.
  - destruct (length cl =? 0); constructor; [constructor; exact CL|constructor].
  - assert (G : Forall nclean [NAnyOf any]) by (constructor; [constructor; exact A|constructor]). destruct any as [|[] [|y any]]; try exact G; try exact A; apply Forall_nil.
  - destruct (length cr =? 0); constructor; [constructor; exact CR|constructor].
Qed.
Lemma map_opt_clean (g : Node -> option Matcher) ch : forall ms, (forall c m, In c ch -> g c = Some m -> clean m) -> map_opt (fun c => option_map optimizeMatcher (g c)) ch = Some ms -> Forall clean ms.
Proof.
  induction ch as [|c ch IH]; intros ms H E; cbn [map_opt] in E; [injection E as <-; constructor|]. destruct (g c) as [m|] eqn:G; [|discriminate]. cbn [option_map] in E. destruct (map_opt _ ch) as [ys|] eqn:Q; [|discriminate]. injection E as <-. constructor; [apply optimize_clean, (H c m); [left; reflexivity|exact G]|apply IH; [intros; eapply H; [right; eassumption|eassumption]|reflexivity]].
Qed.
Lemma compile_f_clean sep : fine sep -> forall fuel n m, nclean n -> compile_f fuel n sep = Some m -> clean m.
Proof.
  intros FS. induction fuel as [|f IH]; intros n m N E; [discriminate|]. cbn [compile_f] in E. destruct N as [|ch F|b c F|b l h Ol Oh|t F| | | |ch F].
  - injection E as <-. constructor.
  - rewrite Forall_forall in F. destruct ch as [|c ch]; [injection E as <-; constructor|]. destruct (map_opt _ (c :: ch)) as [ms|] eqn:Q; [|discriminate]. destruct (compileMatchers (minimizeMatchers ms)) as [x|] eqn:C; [|discriminate]. injection E as <-. apply optimize_clean. apply (compile_clean _ _ _ (minimize_clean _ _ (map_opt_clean (fun c => compile_f f c sep) (c :: ch) ms ltac:(intros y m I H; exact (IH _ _ (F y I) H)) Q)) C).
  - injection E as <-. apply (optimize_clean (MList (runes c) b)). constructor. exact F.
  - injection E as <-. constructor; assumption.
  - injection E as <-. constructor; assumption.
  - injection E as <-. apply (optimize_clean (MAny sep)). constructor. exact FS.
  - injection E as <-. constructor.
  - injection E as <-. constructor. exact FS.
  - destruct (minimizeTreeAnyOf ch) as [n'|] eqn:MT; [exact (IH _ _ (factored_clean _ _ MT F) E)|]. rewrite Forall_forall in F. destruct (map_opt _ ch) as [ms|] eqn:Q; [|discriminate]. injection E as <-. constructor. exact (map_opt_clean (fun c => compile_f f c sep) ch ms ltac:(intros y m I H; exact (IH _ _ (F y I) H)) Q).
Qed.
(** ** Patterns *)
Lemma writes_text_fine sp cs s : writes_text sp cs s -> fine s -> fine cs /\ Forall valid_rune cs.
Proof.
  induction 1 as [|c cs s W _ _ T IH|c cs s W T IH]; intros F; [split; constructor| |].
  - apply fine_app in F. destruct F as [F1 F2]. destruct (IH F2). split; constructor; try assumption; [apply encode_fine_inv, F1|apply W].
  - inversion F as [|? ? _ F']; subst. apply fine_app in F'. destruct F' as [F1 F2]. destruct (IH F2). split; constructor; try assumption; [apply encode_fine_inv, F1|apply W].
Qed.
Scheme term_mut := Induction for term_of Sort Prop with terms_mut := Induction for terms_of Sort Prop with alts_mut := Induction for alts_of Sort Prop.
Combined Scheme gram_ind from term_mut, terms_mut, alts_mut.
Scheme open_terms_mut := Induction for open_terms Sort Prop with open_alts_mut := Induction for open_alts Sort Prop.
Combined Scheme open_gram_ind from open_terms_mut, open_alts_mut.
Ltac split_fine := repeat match goal with H : fine (_ ++ _) |- _ => apply fine_app in H; destruct H end.
Lemma terms_clean : (forall a n s, term_of a n s -> fine s -> nclean n) /\ (forall a ns s, terms_of a ns s -> fine s -> Forall nclean ns) /\ (forall ns s, alts_of ns s -> fine s -> Forall nclean ns).
Proof.
  apply gram_ind; intros; split_fine; try solve [constructor].
  - constructor. destruct (writes_text_fine _ _ _ w H). apply text_fine. assumption.
  - destruct c as [lo hi Wl Wh _ _|cs s0 _ W _ _].
    + split_fine. constructor; apply encode_fine_inv; assumption.
    + destruct (writes_text_fine _ _ _ W) as [F1 F2]; [assumption|]. constructor. rewrite runes_utf8 by exact F2. exact F1.
  - constructor. auto.
  - constructor; auto.
  - constructor; [|constructor]. constructor. auto.
  - constructor; [constructor; auto|auto].
Qed.
Lemma open_clean : (forall a ns s, open_terms a ns s -> fine s -> Forall nclean ns) /\ (forall ns s, open_alts ns s -> fine s -> Forall nclean ns).
Proof.
  destruct terms_clean as [_ [T _]]. apply open_gram_ind; intros; split_fine; eauto.
  - apply Forall_app. split; [eauto|]. constructor; [|constructor]. constructor. auto.
  - constructor; [|constructor]. constructor. auto.
  - constructor; [constructor; eauto|auto].
Qed.
Lemma pattern_clean t p : reads_pattern t p -> fine p -> nclean t.
Proof. intros [ns [s [-> [O E]]]] F. constructor. apply (proj1 open_clean _ _ _ O). destruct E as [<-| ->]; [exact F|]. apply fine_app in F. tauto. Qed.
(** ** Strings of clean matchers *)
Definition okb (c : Z) : bool := negb (c =? 37)%Z && negb (c =? 34)%Z && negb (c =? 92)%Z.
Lemma fine_lit s : forallb okb (lit s) = true -> fine (lit s).
Proof.
  intros H. apply Forall_forall. intros c I. rewrite forallb_forall in H. specialize (H c I). unfold okb in H. rewrite !andb_true_iff, !negb_true_iff, !Z.eqb_neq in H. unfold ok, percent, quote, backslash. tauto.
Qed.
Lemma lit_string c s : lit (String c s) = lit (String c EmptyString) ++ lit s.
Proof. reflexivity. Qed.
Lemma uint_fine u : fine (lit (DecimalString.NilEmpty.string_of_uint u)).
Proof. induction u; cbn [DecimalString.NilEmpty.string_of_uint]; [constructor|..]; rewrite lit_string; apply fine_app; (split; [apply fine_lit; reflexivity|exact IHu]). Qed.
Lemma uhex_fine u : fine (lit (HexadecimalString.NilEmpty.string_of_uint u)).
Proof. induction u; cbn [HexadecimalString.NilEmpty.string_of_uint]; [constructor|..]; rewrite lit_string; apply fine_app; (split; [apply fine_lit; reflexivity|exact IHu]). Qed.
Lemma itoa_fine z : fine (itoa z).
Proof.
  unfold itoa. apply fine_app. split; [destruct (z <? 0)%Z; [apply fine_lit; reflexivity|constructor]|]. unfold DecimalString.NilZero.string_of_uint.
  destruct (Nat.to_uint _) eqn:E; [apply fine_lit; reflexivity|..]; rewrite <- E; apply uint_fine.
Qed.
Lemma hex_fine n : fine (hex n).
Proof. unfold hex, HexadecimalString.NilZero.string_of_uint. destruct (N.to_hex_uint n) eqn:E; [apply fine_lit; reflexivity|..]; rewrite <- E; apply uhex_fine. Qed.
Lemma join_fine l : Forall fine l -> fine (join_commas l).
Proof. induction 1 as [|x l F G IH]; [constructor|]. cbn [join_commas]. destruct l as [|y l]; [exact F|]. rewrite !fine_app. repeat split; [exact F|apply fine_lit; reflexivity|exact IH]. Qed.
Lemma neg_fine b : fine (neg b).
Proof. destruct b; [apply fine_lit; reflexivity|constructor]. Qed.
Lemma string_fine m : clean m -> fine (String_ m).
Proof.
  induction m as [m IH] using part_ind. intros C.
  destruct C as [t F|e F| |e F|l n F|x y n Ox Oy| |n|n|t n F|t F|t F|t e F G|t e F G|p q F G|ms F|ms F|ms len F|v l r ll rl len Bv Bl Br]; cbn [String_]; unfold text_of;
    rewrite ?fine_app; repeat split; try (apply fine_lit; reflexivity); try (apply text_fine; assumption); try apply neg_fine; try apply itoa_fine; try assumption.
  all: try (apply text_fine; constructor; [assumption|constructor]).
  all: try (apply join_fine; apply Forall_map, Forall_forall; intros x I; apply IH; [exact I|rewrite Forall_forall in F; apply F, I]).
  - destruct l as [x|]; [apply IH; [right; left; reflexivity|apply Bl; reflexivity]|apply fine_lit; reflexivity].
  - apply IH; [left; reflexivity|exact Bv].
  - destruct r as [x|]; [apply IH; [right; right; reflexivity|apply Br; reflexivity]|apply fine_lit; reflexivity].
Qed.
