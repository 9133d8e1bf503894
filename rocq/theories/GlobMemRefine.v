(** * The programs of GlobMem.v compute what GlobMatch.v says, touching only arrays they own. *)
From Coq Require Import String.
From Coq Require Import ZArith Arith List Bool Lia.
From Verif Require Import Utf8 GoStr GlobMatch GlobUtil GlobUtilProps GlobLenSpec GlobLen GlobMem GlobMemLogic GlobMemSlices.
Import ListNotations.
Open Scope nat_scope.
Open Scope prog_scope.

(** What Index gives: r for o, in a heap h' grown from h. *)
Definition meets (h h' : hp) (o : option IR) (r : option (option (nat * Slice))) : Prop :=
  match o, r with
  | None, None => True
  | Some None, Some None => True
  | Some (Some (i, segs)), Some (Some (j, sl)) => j = i /\ holds h' sl segs /\ sep h sl
  | _, _ => False
  end.
Record refines (x : Sem) (y : MSem) : Prop := {
  rf_len : mLen y = sLen x;
  rf_match : forall s h (Q : option bool -> hp -> Prop), (forall h', ext h h' -> Q (sMatch x s) h') -> wp (mMatch y s) h Q;
  rf_index : forall s h (Q : option (option (nat * Slice)) -> hp -> Prop), (forall r h', ext h h' -> meets h h' (sIndex x s) r -> Q r h') -> wp (mIndex y s) h Q }.
Definition ok_index (o : option IR) (p : prog (option (nat * Slice))) : Prop :=
  forall h (Q : option (option (nat * Slice)) -> hp -> Prop), (forall r h', ext h h' -> meets h h' o r -> Q r h') -> wp p h Q.
Definition ok_match (o : option bool) (p : prog bool) : Prop := forall h (Q : option bool -> hp -> Prop), (forall h', ext h h' -> Q o h') -> wp p h Q.

(** ** AnyOf *)
Lemma any_match_ok xs ys s : Forall2 refines xs ys -> ok_match (any_match xs s) (m_any_match ys s).
Proof.
  intros F. induction F as [|x y xs ys R F IH]; intros h Q K; cbn [any_match m_any_match] in *.
  - cbn. apply K, ext_refl.
  - apply wp_bind. apply (rf_match x y R). intros h' X. destruct (sMatch x s) as [[|]|]; cbn [wp]; [apply K, X| |apply K, X]. apply IH. intros h2 X2. apply K. exact (ext_trans _ _ _ X X2).
Qed.
Lemma any_loop_ok h0 s xs ys : Forall2 refines xs ys -> forall acc index segments cur h (Q : option (option (nat * Slice)) -> hp -> Prop),
  owned segments -> ext h0 h -> sep h0 segments -> holds h segments cur -> acc = match index with None => None | Some i => Some (i, cur) end ->
  (forall r h', ext h0 h' -> meets h0 h' (any_index xs s acc) r -> Q r h') -> wp (m_any_loop ys s index segments) h Q.
Proof.
  intros F. induction F as [|x y xs ys R F IH]; intros acc index segments cur h Q O X P Ho -> K; cbn [any_index m_any_loop] in *.
  - destruct index as [i|].
    + cbn [wp]. apply K; [exact X|]. cbn. auto.
    + apply wp_bind. apply (release_ok h0 h segments cur); auto. intros h' X'. cbn [wp]. apply K; [exact X'|]. exact I.
  - apply wp_bind. apply (rf_index x y R). intros r h' X1 M. pose proof (ext_trans _ _ _ X X1) as X'. pose proof (holds_ext _ _ _ _ X1 Ho) as Ho'.
    destruct (sIndex x s) as [[[i segs]|]|], r as [[[j seg]|]|]; cbn [meets] in M; try contradiction.
    + destruct M as [-> [Hs Ps]].
      assert (Take : (forall r h', ext h0 h' -> meets h0 h' (any_index xs s (Some (i, segs))) r -> Q r h') -> wp (vs <- contents seg ;; segments' <- append (cut segments) vs ;; m_any_loop ys s (Some i) segments') h' Q).
      { intros K'. apply wp_bind. apply (contents_ok seg segs); [exact Hs|]. apply wp_bind. apply (refill_ok h0 h' segments cur); auto. intros h2 sl2 O2 X2 P2 H2.
        apply (IH (Some (i, segs)) (Some i) sl2 segs); auto. }
      destruct index as [i0|]; [|exact (Take K)]. destruct (i <? i0); [exact (Take K)|]. destruct (i0 <? i).
      * apply (IH (Some (i0, cur)) (Some i0) segments cur); auto.
      * apply wp_bind. apply (merge_ok h0 h' segments cur seg segs); auto. intros h2 sl2 O2 X2 P2 H2. apply (IH (Some (i0, appendMerge cur segs)) (Some i0) sl2 (merge cur segs)); auto.
    + apply (IH _ index segments cur h' Q O X' P Ho' eq_refl K).
    + apply K; [exact X'|exact I].
Qed.
Lemma any_index_ok xs ys s : Forall2 refines xs ys -> ok_index (any_index xs s None) (m_any_index ys s).
Proof.
  intros F h Q K. unfold m_any_index. apply wp_bind. apply acquire_ok; [lia|]. intros h' sl O X P Ho. apply (any_loop_ok h s xs ys F None None sl []); auto.
Qed.
(** ** EveryOf *)
Lemma every_match_ok xs ys s : Forall2 refines xs ys -> ok_match (every_match xs s) (m_every_match ys s).
Proof.
  intros F. induction F as [|x y xs ys R F IH]; intros h Q K; cbn [every_match m_every_match] in *.
  - cbn. apply K, ext_refl.
  - apply wp_bind. apply (rf_match x y R). intros h' X. destruct (sMatch x s) as [[|]|]; cbn [wp]; [|apply K, X|apply K, X]. apply IH. intros h2 X2. apply K. exact (ext_trans _ _ _ X X2).
Qed.
Lemma every_loop_ok h0 s xs ys : Forall2 refines xs ys -> forall first sub index offset next current nx cur h (Q : option (option (nat * Slice)) -> hp -> Prop),
  owned next -> owned current -> ext h0 h -> sep h0 next -> sep h0 current -> apart next current -> holds h next nx -> holds h current cur -> (first = true -> cur = []) ->
  (forall r h', ext h0 h' -> meets h0 h' (every_index first xs s sub index offset cur) r -> Q r h') -> wp (m_every_loop first ys s sub index offset next current) h Q.
Proof.
  intros F. induction F as [|x y xs ys R F IH]; intros first sub index offset next current nx cur h Q On Oc X Pn Pc A Hn Hc Fi K; cbn [every_index m_every_loop] in *.
  - apply wp_bind. apply (release_ok (dropS h next) h next nx); [apply ext_drop|apply sep_drop|exact Hn|]. intros h' X'. cbn [wp]. apply K.
    + exact (ext_trans _ _ _ (drop_above h0 h next X Pn) X').
    + cbn. split; [reflexivity|]. split; [|exact Pc]. apply (holds_ext _ _ _ _ X'). apply holds_drop; [exact (apart_sym _ _ A)|exact Hc].
  - apply wp_bind. apply (rf_index x y R). intros r h1 X1 M. pose proof (ext_trans _ _ _ X X1) as X'. pose proof (holds_ext _ _ _ _ X1 Hn) as Hn'. pose proof (holds_ext _ _ _ _ X1 Hc) as Hc'.
    destruct (sIndex x sub) as [[[idx segs]|]|], r as [[[j seg]|]|]; cbn [meets] in M; try contradiction.
    + destruct M as [-> [Hs Ps]].
      assert (Go : forall next current nx vs h2, owned next -> owned current -> ext h0 h2 -> sep h0 next -> sep h0 current -> apart next current -> holds h2 next nx -> holds h2 current vs ->
        (forall r h', ext h0 h' -> meets h0 h' (match slice s (idx + offset) (length s) with None => None | Some sub' => every_index false xs s sub' (idx + offset) (offset + idx) vs end) r -> Q r h') ->
        wp (match slice s (idx + offset) (length s) with None => Panic | Some sub' => m_every_loop false ys s sub' (idx + offset) (offset + idx) next current end) h2 Q).
      { intros next' current' nx' vs h2 O1 O2 X2 P1 P2 A2 H1 H2 K2. destruct (slice s (idx + offset) (length s)) as [sub'|].
        - apply (IH false sub' _ _ next' current' nx' vs h2 Q); auto. discriminate.
        - cbn [wp]. apply K2; [exact X2|exact I]. }
      destruct first.
      * cbn [negb andb] in K. apply wp_bind. apply (contents_ok seg segs); [exact Hs|]. apply wp_bind. rewrite (Fi eq_refl) in *.
        apply (append_ok (dropS h1 current) h1 current []); [exact Oc|apply ext_drop|apply sep_drop|exact Hc'|]. intros h2 c2 O2 X2 P2 H2.
        assert (Hn2 : holds (dropS h1 current) next nx) by (apply holds_drop; [exact A|exact Hn']).
        apply (Go next c2 nx segs h2); auto.
        -- exact (ext_trans _ _ _ (drop_above h0 h1 current X' Pc) X2).
        -- exact (sep_ext _ _ _ (drop_above h0 h1 current X' Pc) P2).
        -- exact (held_apart _ _ _ _ Hn2 P2).
        -- exact (holds_ext _ _ _ _ X2 Hn2).
      * cbn [negb andb] in K. set (f := fun ex => filter (fun n => (Z.of_nat ex + (Z.of_nat index - Z.of_nat (idx + offset)) =? Z.of_nat n)%Z) segs) in *.
        set (B := dropS h1 next). assert (XB : ext h0 B) by (apply drop_above; assumption).
        assert (HcB : holds B current cur) by (apply holds_drop; [exact (apart_sym _ _ A)|exact Hc']).
        assert (HsB : holds B seg segs) by (apply holds_drop; [exact (apart_sym _ _ (held_apart _ _ _ _ Hn Ps))|exact Hs]).
        apply wp_bind. apply (for_slice_ok current cur _ (fun d a g => owned a /\ ext B g /\ sep B a /\ holds g a (flat_map f d))).
        -- intros d a g [_ [Xg _]]. exact (holds_ext _ _ _ _ Xg HcB).
        -- split; [apply owned_cut, On|]. split; [apply ext_drop|]. split; [apply sep_cut, sep_drop|]. exact (holds_cut _ _ _ On Hn').
        -- intros d ex rest a g Q' _ [Oa [Xg [Pa Ha]]] K'.
           apply (for_slice_ok seg segs _ (fun e a g => owned a /\ ext B g /\ sep B a /\ holds g a (flat_map f d ++ filter (fun n => (Z.of_nat ex + (Z.of_nat index - Z.of_nat (idx + offset)) =? Z.of_nat n)%Z) e))).
           ++ intros e b g' [_ [Xg' _]]. exact (holds_ext _ _ _ _ Xg' HsB).
           ++ cbn [filter]. rewrite app_nil_r. auto.
           ++ intros e n more b g' Q2 _ [Ob [Xb [Pb Hb]]] K2. rewrite filter_app in K2. cbn [filter] in K2. destruct (Z.of_nat ex + (Z.of_nat index - Z.of_nat (idx + offset)) =? Z.of_nat n)%Z eqn:T.
              ** apply (append_ok B g' b _ [n] Q2 Ob Xb Pb Hb). intros h2 b2 O2 X2 P2 H2. apply K2. rewrite app_assoc. auto.
              ** cbn [wp]. apply K2. rewrite app_nil_r. auto.
           ++ intros b g' Hb. apply K'. rewrite flat_map_app. cbn [flat_map]. rewrite app_nil_r. exact Hb.
        -- intros n2 h2 [O2 [X2 [P2 H2]]]. rewrite (holds_len _ _ _ H2). destruct (length (flat_map f cur) =? 0) eqn:Z0.
           ++ apply wp_bind. apply (release_ok B h2 n2 (flat_map f cur)); auto. intros h3 X3. apply wp_bind. apply (release_ok h0 h3 current cur).
              ** exact (ext_trans _ _ _ XB X3).
              ** exact Pc.
              ** exact (holds_ext _ _ _ _ X3 HcB).
              ** intros h4 X4. cbn [wp]. apply K; [exact X4|exact I].
           ++ apply wp_bind. apply (contents_ok n2 (flat_map f cur)); [exact H2|]. apply wp_bind. pose proof (ext_trans _ _ _ XB X2) as X02. pose proof (holds_ext _ _ _ _ X2 HcB) as Hc2.
              apply (refill_ok (dropS h2 current) h2 current cur); [exact Oc|apply ext_drop|apply sep_drop|exact Hc2|]. intros h3 c3 O3 X3 P3 H3.
              assert (A2 : apart n2 current) by (apply apart_sym; exact (held_apart _ _ _ _ HcB P2)). assert (Hn3 : holds (dropS h2 current) n2 (flat_map f cur)) by (apply holds_drop; assumption).
              assert (X03 : ext h0 (dropS h2 current)) by (apply drop_above; assumption).
              apply (Go n2 c3 (flat_map f cur) (flat_map f cur) h3); auto.
              ** exact (ext_trans _ _ _ X03 X3).
              ** exact (sep_ext _ _ _ XB P2).
              ** exact (sep_ext _ _ _ X03 P3).
              ** exact (held_apart _ _ _ _ Hn3 P3).
              ** exact (holds_ext _ _ _ _ X3 Hn3).
    + apply wp_bind. apply (release_ok (dropS h1 next) h1 next nx); [apply ext_drop|apply sep_drop|exact Hn'|]. intros h2 X2. apply wp_bind. apply (release_ok h0 h2 current cur).
      * exact (ext_trans _ _ _ (drop_above h0 h1 next X' Pn) X2).
      * exact Pc.
      * apply (holds_ext _ _ _ _ X2). apply holds_drop; [exact (apart_sym _ _ A)|exact Hc'].
      * intros h3 X3. cbn [wp]. apply K; [exact X3|exact I].
    + apply K; [exact X'|exact I].
Qed.
Lemma every_index_ok xs ys s : Forall2 refines xs ys -> ok_index (every_index true xs s s 0 0 []) (m_every_index ys s).
Proof.
  intros F h Q K. unfold m_every_index. apply wp_bind. apply acquire_ok; [lia|]. intros h1 n O1 X1 P1 H1. apply wp_bind. apply acquire_ok; [lia|]. intros h2 c O2 X2 P2 H2.
  apply (every_loop_ok h s xs ys F true s 0 0 n c [] []); auto.
  - exact (ext_trans _ _ _ X1 X2).
  - exact (sep_ext _ _ _ X1 P2).
  - exact (held_apart _ _ _ _ H1 P2).
  - exact (holds_ext _ _ _ _ X2 H1).
Qed.
(** ** Row *)
Lemma row_all_ok s xs ys : Forall2 refines xs ys -> forall idx, ok_match (row_all xs s idx) (m_row_all ys s idx).
Proof.
  intros F. induction F as [|x y xs ys R F IH]; intros idx h Q K; cbn [row_all m_row_all] in *.
  - cbn. apply K, ext_refl.
  - rewrite (rf_len x y R). destruct (slice s idx (length s)) as [rest|]; [|cbn; apply K, ext_refl]. destruct (row_scan (range_str rest) (sLen x) 0 0) as [next i].
    destruct (Z.of_nat i <? sLen x)%Z; [cbn; apply K, ext_refl|]. destruct (slice s idx (idx + next + 1)) as [p|]; [|cbn; apply K, ext_refl].
    apply wp_bind. apply (rf_match x y R). intros h' X. destruct (sMatch x p) as [[|]|]; cbn [wp]; [|apply K, X|apply K, X]. apply IH. intros h2 X2. apply K. exact (ext_trans _ _ _ X X2).
Qed.
Lemma row_index_ok len s xs ys : Forall2 refines xs ys -> forall ps, ok_index (row_index xs len s ps) (m_row_index ys len s ps).
Proof.
  intros F. induction ps as [|i ps IH]; intros h Q K; cbn [row_index m_row_index] in *.
  - cbn. apply K; [apply ext_refl|exact I].
  - destruct (Z.of_nat (length (skipn i s)) <? len)%Z; [cbn; apply K; [apply ext_refl|exact I]|]. apply wp_bind. apply (row_all_ok (skipn i s) xs ys F 0). intros h' X.
    destruct (row_all xs (skipn i s) 0) as [[|]|]; cbn [wp].
    + apply K; [exact X|]. cbn. auto.
    + apply IH. intros r h2 X2 M. apply K; [exact (ext_trans _ _ _ X X2)|]. destruct (row_index xs len s ps) as [[[a b]|]|], r as [[[c d]|]|]; cbn in *; auto. destruct M as [M1 [M2 M3]]. repeat split; auto. exact (sep_ext _ _ _ X M3).
    + apply K; [exact X|exact I].
Qed.
(** ** BTree *)
Definition orefines (x : option Sem) (y : option MSem) : Prop := match x, y with None, None => True | Some x, Some y => refines x y | _, _ => False end.
Lemma opt_match_ok x y s : orefines x y -> ok_match (opt_match x s) (m_opt_match y s).
Proof.
  destruct x as [x|], y as [y|]; cbn; try contradiction; intros R h Q K.
  - apply (rf_match x y R). exact K.
  - cbn. apply K, ext_refl.
Qed.
Lemma holds_read h b n vs i : holds h (Sl b n) vs -> i < length vs -> exists arr, look h b = Some arr /\ nth_error arr i = Some (nth i vs 0).
Proof.
  intros Ho L. destruct b as [m|k]; cbn [holds look] in *.
  - destruct Ho as [_ ->]. cbn in L. assert (i = 0) by lia. subst i. exists [m]. auto.
  - destruct Ho as [_ [rest E]]. exists (vs ++ rest). split; [exact E|]. apply nth_error_pre, L.
Qed.
Lemma firstn_S_nth (l : list nat) : forall i, i < length l -> firstn (S i) l = firstn i l ++ [nth i l 0].
Proof. induction l as [|x l IH]; intros i L; cbn in L; [lia|]. destruct i; [reflexivity|]. cbn [firstn nth app]. f_equal. apply IH. lia. Qed.
Lemma try_right_ok x y s at_ b len vs : orefines x y -> forall n h (Q : option bool -> hp -> Prop), holds h (Sl b len) vs -> n <= length vs ->
  (forall h', ext h h' -> Q (try_right x s at_ (rev (firstn n vs))) h') -> wp (m_try_right y s at_ b n) h Q.
Proof.
  intros R. induction n as [|n IH]; intros h Q Ho L K.
  - cbn in *. apply K, ext_refl.
  - rewrite firstn_S_nth, rev_unit in K by lia. cbn [m_try_right wp try_right] in *. destruct (holds_read h b len vs n Ho ltac:(lia)) as [arr [E1 E2]]. exists arr, (nth n vs 0). split; [exact E1|]. split; [exact E2|].
    apply wp_bind. apply (opt_match_ok x y _ R). intros h' X. destruct (opt_match x _) as [[|]|]; cbn [wp]; [apply K, X| |apply K, X].
    apply IH; [exact (holds_ext _ _ _ _ X Ho)|lia|]. intros h2 X2. apply K. exact (ext_trans _ _ _ X X2).
Qed.
Lemma btree_loop_ok v v' l l' r r' s limit : refines v v' -> orefines l l' -> orefines r r' -> forall fuel offset, ok_match (btree_loop fuel v l r s offset limit) (m_btree_loop fuel v' l' r' s offset limit).
Proof.
  intros Rv Rl Rr. induction fuel as [|fuel IH]; intros offset h Q K; cbn [btree_loop m_btree_loop] in *; [cbn; apply K, ext_refl|].
  destruct (offset <? limit)%Z; [|cbn; apply K, ext_refl]. destruct (slice s (Z.to_nat offset) (Z.to_nat limit)) as [mid|]; [|cbn; apply K, ext_refl].
  apply wp_bind. apply (rf_index v v' Rv). intros res h1 X1 M. destruct (sIndex v mid) as [[[i segs]|]|], res as [[[j sl]|]|]; cbn [meets] in M; try contradiction; [|cbn [wp]; apply K, X1|apply K, X1].
  destruct M as [-> [Hs Ps]]. cbv zeta. destruct (length s <? Z.to_nat offset + i); [cbn [wp]; apply K, X1|].
  apply wp_bind. apply (opt_match_ok l l' _ Rl). intros h2 X2. pose proof (ext_trans _ _ _ X1 X2) as X12. pose proof (holds_ext _ _ _ _ X2 Hs) as Hs2.
  destruct (opt_match l (firstn (Z.to_nat offset + i) s)) as [bl|]; [|apply K, X12].
  assert (Rest : forall ok h3, ext h2 h3 -> (forall h', ext h h' -> Q (if ok : bool then Some true else btree_loop fuel v l r s (offset + Z.of_nat (i + snd (decode (skipn (Z.to_nat offset + i) s))))%Z limit) h') ->
    wp (if ok then release sl ;;; Ret true else release sl ;;; m_btree_loop fuel v' l' r' s (offset + Z.of_nat (i + snd (decode (skipn (Z.to_nat offset + i) s))))%Z limit) h3 Q).
  { intros ok h3 X3 K'. pose proof (ext_trans _ _ _ X12 X3) as X13. pose proof (holds_ext _ _ _ _ X3 Hs2) as Hs3. destruct ok; apply wp_bind; apply (release_ok h h3 sl segs); auto.
    intros h4 X4. apply IH. intros h5 X5. apply K'. exact (ext_trans _ _ _ X4 X5). }
  apply wp_bind. destruct bl; [|apply (Rest false h2 (ext_refl h2)); exact K].
  assert (T : forall (Q' : option bool -> hp -> Prop), (forall h', ext h2 h' -> Q' (try_right r s (Z.to_nat offset + i) (rev segs)) h') -> wp match sl with Nil => Ret false | Sl b n => m_try_right r' s (Z.to_nat offset + i) b n end h2 Q').
  { intros Q' K'. destruct sl as [|b n].
    - cbn in Hs2. subst segs. cbn in *. apply K', ext_refl.
    - pose proof (holds_len _ _ _ Hs2) as L. cbn in L. subst n. apply (try_right_ok r r' s _ b (length segs) segs Rr _ h2 Q' Hs2 (le_n _)). rewrite firstn_all. exact K'. }
  apply T. intros h3 X3. destruct (try_right r s (Z.to_nat offset + i) (rev segs)) as [[|]|].
  - apply (Rest true h3 X3). exact K.
  - apply (Rest false h3 X3). exact K.
  - apply K. exact (ext_trans _ _ _ X12 X3).
Qed.
(** ** Leaves *)
Lemma ok_ret o r : meets (fun _ => None) (fun _ => None) (Some o) (Some r) -> (forall i sl, r = Some (i, sl) -> exists m, sl = Sl (Static m) 1) -> ok_index (Some o) (Ret r).
Proof.
  intros M St h Q K. cbn [wp]. apply K; [apply ext_refl|]. destruct o as [[i segs]|], r as [[j sl]|]; cbn in *; try contradiction; auto. destruct (St j sl eq_refl) as [m ->]. cbn in *. tauto.
Qed.
Lemma all_segments_ok c d s : (0 <= c)%Z -> ok_index (Some (Some (0, map (Nat.add d) (all_segments s)))) (m_all_segments c d s).
Proof.
  intros B h Q K. unfold m_all_segments. apply wp_bind. apply acquire_ok; [exact B|]. intros h1 s1 O1 X1 P1 H1. apply wp_bind. apply (append_each_ok h _ h1 s1 []); auto. intros h2 s2 O2 X2 P2 H2.
  apply wp_bind. apply (append_ok h h2 s2 _ [d + length s] _ O2 X2 P2 H2). intros h3 s3 O3 X3 P3 H3. cbn [wp]. apply K; [exact X3|]. cbn. split; [reflexivity|]. split; [|exact P3].
  unfold all_segments. rewrite map_app, map_map. exact H3.
Qed.
Lemma all_segments_ok0 c s : (0 <= c)%Z -> ok_index (Some (Some (0, all_segments s))) (m_all_segments c 0 s).
Proof. intros B. pose proof (all_segments_ok c 0 s B) as H. replace (map (Nat.add 0) (all_segments s)) with (all_segments s) in H by (symmetry; apply map_id). exact H. Qed.
Lemma prefix_segments_ok i n sub : ok_index (Some (Some (i, n :: map (fun ir => n + fst ir + RuneLen (snd ir)) (range_str sub)))) (m_prefix_segments i n sub).
Proof.
  intros h Q K. unfold m_prefix_segments. apply wp_bind. apply acquire_ok; [lia|]. intros h1 s1 O1 X1 P1 H1. apply wp_bind. apply (append_ok h h1 s1 [] [n] _ O1 X1 P1 H1). intros h2 s2 O2 X2 P2 H2.
  apply wp_bind. apply (append_each_ok h _ h2 s2 [n]); auto. intros h3 s3 O3 X3 P3 H3. cbn [wp]. apply K; [exact X3|]. cbn. auto.
Qed.
Lemma one_index_ok i v : ok_index (Some (Some (i, [v]))) (segments <- one v ;; Ret (Some (i, segments))).
Proof. intros h Q K. apply wp_bind. apply one_ok. intros h1 s1 O1 X1 P1 H1. cbn [wp]. apply K; [exact X1|]. cbn. auto. Qed.
Lemma first_rune_ok p s : ok_index (Some (first_rune p s)) (m_first_rune p s).
Proof.
  unfold first_rune, m_first_rune. apply ok_ret.
  - destruct (find _ _) as [[i r]|]; cbn; auto.
  - intros i sl E. destruct (find _ _) as [[j r]|]; [|discriminate]. injection E as _ <-. eauto.
Qed.
Lemma last_index_nil suf : suf <> [] -> last_index_of [] suf = None.
Proof. intros N. destruct suf; [contradiction|reflexivity]. Qed.
Lemma suffix_ends_ok h0 suf : forall fuel sub sl cur h (Q : option Slice -> hp -> Prop), owned sl -> ext h0 h -> sep h0 sl -> holds h sl cur ->
  (forall h' sl', owned sl' -> ext h0 h' -> sep h0 sl' -> holds h' sl' (cur ++ rev (suffix_ends fuel sub suf)) -> Q (Some sl') h') -> wp (m_suffix_ends fuel sub suf sl) h Q.
Proof.
  induction fuel as [|fuel IH]; intros sub sl cur h Q O X P Ho K; cbn [suffix_ends m_suffix_ends] in *.
  - cbn [wp]. apply K; auto. cbn. rewrite app_nil_r. exact Ho.
  - destruct (last_index_of sub suf) as [i|].
    + apply wp_bind. apply (append_ok h0 h sl cur [i + length suf] _ O X P Ho). intros h1 s1 O1 X1 P1 H1. apply (IH _ s1 (cur ++ [i + length suf])); auto. intros h2 s2 O2 X2 P2 H2. apply K; auto.
      rewrite rev_app_distr. cbn [rev app]. rewrite <- app_assoc in H2. exact H2.
    + cbn [wp]. apply K; auto. cbn. rewrite app_nil_r. exact Ho.
Qed.
Lemma leaf_ok m index : (forall s, ok_index (sIndex (sem m) s) (index s)) -> refines (sem m) {| mLen := Len m; mMatch := fun s => pure (Match m s); mIndex := index |}.
Proof.
  intros Ix. constructor; cbn [mLen mMatch mIndex]; [reflexivity| |].
  - intros s h Q K. apply wp_pure. apply K, ext_refl.
  - intros s h Q K. apply Ix, K.
Qed.
Lemma refines_all ms : (forall x, In x ms -> refines (sem x) (msem x)) -> Forall2 refines (map sem ms) (map msem ms).
Proof. induction ms as [|x ms IH]; intros H; constructor; [apply H; left; reflexivity|apply IH; intros y I; apply H; right; exact I]. Qed.
Lemma ok_none : ok_index (Some None) (Ret None).
Proof. apply ok_ret; [exact I|discriminate]. Qed.
Lemma ok_static i m : ok_index (Some (Some (i, [m]))) (Ret (Some (i, Sl (Static m) 1))).
Proof. apply ok_ret; [cbn; auto|]. intros j sl E. injection E as _ <-. eauto. Qed.
Theorem msem_ok : forall m, refines (sem m) (msem m).
Proof.
  induction m as [m IH] using part_ind. destruct m as [t|e| |e|l n|a b n| |n|n|t n|t|t|t e|t e|p q|ms|ms|v l r ll rl len|ms len]; cbn [msem]; try (apply leaf_ok; intros s; cbn [sem sIndex]).
  - destruct (index_of s t) as [i|]; [apply ok_static|apply ok_none].
  - destruct (IndexAnyRunes s e) as [[|k]|]; [apply ok_static|apply all_segments_ok0; lia|apply all_segments_ok0; lia].
  - apply all_segments_ok0. lia.
  - apply first_rune_ok.
  - apply first_rune_ok.
  - apply first_rune_ok.
  - apply ok_static.
  - destruct (Z.leb_spec (Z.of_nat (length s) - Z.of_nat n + 1) 0) as [L|L]; [apply ok_none|]. intros h Q K. cbv zeta. apply wp_bind. apply acquire_ok; [lia|]. intros h1 s1 O1 X1 P1 H1.
    apply wp_bind. apply (append_each_ok h _ h1 s1 []); auto. intros h2 s2 O2 X2 P2 H2. cbn [app] in H2. cbn [wp]. apply K; [exact X2|]. rewrite (holds_len _ _ _ H2).
    destruct (map _ (skipn (n - 1) (range_str s))) as [|x segs]; cbn; auto.
  - intros h Q K. apply wp_bind. apply acquire_ok; [lia|]. intros h1 s1 O1 X1 P1 H1. apply wp_bind. apply (append_ok h h1 s1 [] [0] _ O1 X1 P1 H1). intros h2 s2 O2 X2 P2 H2.
    apply wp_bind. apply (append_each_ok h _ h2 s2 [0]); auto. intros h3 s3 O3 X3 P3 H3. cbn [wp]. apply K; [exact X3|]. cbn. auto.
  - destruct (index_of s t) as [i|]; destruct n.
    + apply all_segments_ok0. lia.
    + cbv zeta. destruct (length s <=? i + length t); [apply one_index_ok|apply all_segments_ok; lia].
    + apply all_segments_ok0. lia.
    + apply ok_none.
  - destruct (index_of s t) as [i|]; [apply prefix_segments_ok|apply ok_none].
  - destruct (index_of s t) as [i|]; [apply one_index_ok|apply ok_none].
  - destruct (index_of s t) as [i|]; [apply prefix_segments_ok|apply ok_none].
  - destruct (index_of s t) as [i|]; [|apply ok_none]. destruct (LastIndexAnyRunes (firstn i s) e) as [j|]; [apply one_index_ok|]. intros h Q K. cbn [wp]. apply K; [apply ext_refl|exact I].
  - destruct (index_of s p) as [i|]; [|apply ok_none]. destruct (Nat.eqb_spec (length q) 0) as [Z|Z]; [apply one_index_ok|].
    assert (Nq : q <> []) by (intros ->; apply Z; reflexivity). destruct (Nat.eqb_spec (length s - i) 0) as [L|L].
    + assert (E : skipn i s = []) by (apply skipn_all2; lia). rewrite E. cbn [suffix_ends]. rewrite (last_index_nil q Nq). apply ok_none.
    + intros h Q K. apply wp_bind. apply acquire_ok; [lia|]. intros h1 s1 O1 X1 P1 H1. apply wp_bind. apply (suffix_ends_ok h q _ _ s1 [] h1 _ O1 X1 P1 H1). intros h2 s2 O2 X2 P2 H2. cbn [app] in H2.
      set (es := suffix_ends (S (length s)) (skipn i s) q) in *. rewrite (holds_len _ _ _ H2), rev_length. destruct es as [|x es].
      * cbn [length Nat.eqb]. apply wp_bind. apply (release_ok h h2 s2 _ _ X2 P2 H2). intros h3 X3. cbn [wp]. apply K; [exact X3|exact I].
      * cbn [length Nat.eqb]. apply wp_bind. apply (reverse_ok h h2 s2 _ _ O2 X2 P2 H2). intros h3 X3 H3. rewrite rev_involutive in H3. cbn [wp]. apply K; [exact X3|]. cbn. auto.
  - pose proof (refines_all ms (fun x I => IH x I)) as F. constructor; cbn [mLen mMatch mIndex sem sLen sMatch sIndex].
    + reflexivity.
    + intros s h Q K. apply (any_match_ok _ _ s F). exact K.
    + intros s h Q K. apply (any_index_ok _ _ s F). exact K.
  - pose proof (refines_all ms (fun x I => IH x I)) as F. constructor; cbn [mLen mMatch mIndex sem sLen sMatch sIndex].
    + reflexivity.
    + intros s h Q K. apply (every_match_ok _ _ s F). exact K.
    + intros s h Q K. apply (every_index_ok _ _ s F). exact K.
  - constructor; cbn [mLen mMatch mIndex sem sLen sMatch sIndex].
    + reflexivity.
    + intros s h Q K. unfold m_btree_match, btree_match in *. destruct (offset_limit ll rl len (length s)) as [offset limit]. apply (btree_loop_ok (sem v) (msem v) (match l with Some l => Some (sem l) | None => None end) (match l with Some l => Some (msem l) | None => None end) (match r with Some r => Some (sem r) | None => None end) (match r with Some r => Some (msem r) | None => None end)).
      * apply IH. left. reflexivity.
      * destruct l as [l|]; cbn; auto. apply IH. right. left. reflexivity.
      * destruct r as [r|]; cbn; auto. apply IH. right. right. reflexivity.
      * exact K.
    + intros s h Q K. cbn [wp]. apply K; [apply ext_refl|exact I].
  - pose proof (refines_all ms (fun x I => IH x I)) as F. constructor; cbn [mLen mMatch mIndex sem sLen sMatch sIndex].
    + reflexivity.
    + intros s h Q K. unfold row_match in K. destruct (Z.of_nat (length (range_str s)) =? len)%Z; [apply (row_all_ok s _ _ F 0); exact K|]. cbn. apply K, ext_refl.
    + intros s h Q K. apply (row_index_ok len s _ _ F). exact K.
Qed.
