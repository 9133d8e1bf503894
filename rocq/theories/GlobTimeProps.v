(** * C79: how many steps a match takes. *)
From Coq Require Import String.
From Coq Require Import ZArith Arith List Bool Lia.
From Verif Require Import Utf8 GoStr GlobLex GlobMatch GlobUtil GlobCompile GlobSpec GlobProps1 GlobMem GlobMemSpec GlobFactor.
Import ListNotations.
Open Scope nat_scope.

(** ** Specification *)
(** p makes c steps (accesses to segments) from memory m and becomes p' in memory m'. *)
Inductive takes {A} : nat -> Store * prog A -> Store * prog A -> Prop :=
  | tk_none s : takes 0 s s
  | tk_more c m p m1 p1 s : step m p m1 p1 -> takes c (m1, p1) s -> takes (S c) (m, p) s.
(** The fixed segments are in place (they are in every state that calls of Match reach: C69_constants). *)
Definition in_place (m : Store) : Prop := forall k, arrays m (Static k) = Some [k].
(** The pattern b*a*a*..a* with n times a*, and the text aa..a of n bytes. *)
Definition stars_pattern (n : nat) : str := lit "b*" ++ concat (repeat (lit "a*") n).
Definition as_text (n : nat) : str := repeat 97%Z n.
(** Texts and stars. *)
Definition text_or_star (n : Node) : Prop := match n with NText _ | NAny => True | _ => False end.
Definition texts (ns : list Node) : nat := length (filter (fun n => match n with NText _ => true | _ => false end) ns).

(** ** Proofs *)
(** Programs that only use fixed segments: how many steps they make, and what they give (None = panic). *)
Fixpoint ev {A} (p : prog A) : option (nat * option A) :=
  match p with
  | Ret a => Some (0, Some a)
  | Panic => Some (0, None)
  | Cap (Static _) k => match ev (k 1) with Some (c, r) => Some (S c, r) | None => None end
  | Read (Static v) 0 k => match ev (k v) with Some (c, r) => Some (S c, r) | None => None end
  | _ => None
  end.
Definition outcome {A} (r : option A) : prog A := match r with Some a => Ret a | None => Panic end.
Lemma ev_runs {A} (p : prog A) : forall c r m, in_place m -> ev p = Some (c, r) -> takes c (m, p) (m, outcome r).
Proof.
  induction p as [a| |init k IH|pool k IH|pool b k IH|b k IH|b i k IH|b i v k IH]; intros c r m I E; cbn [ev] in E; try discriminate.
  - injection E as <- <-. constructor.
  - injection E as <- <-. constructor.
  - destruct b as [v|]; [|discriminate]. destruct (ev (k 1)) as [[c' r']|] eqn:E1; [|discriminate]. injection E as <- <-. eapply tk_more; [apply (st_cap m (Static v) k [v] (I v))|]. cbn [length]. apply IH; assumption.
  - destruct b as [v|]; [|discriminate]. destruct i; [|discriminate]. destruct (ev (k v)) as [[c' r']|] eqn:E1; [|discriminate]. injection E as <- <-. eapply tk_more; [apply (st_read m (Static v) 0 k [v] v (I v)); reflexivity|]. apply IH; assumption.
Qed.
Lemma ev_bounds {A} (p : prog A) : forall c r m, in_place m -> ev p = Some (c, r) -> forall c' m' p', takes c' (m, p) (m', p') -> c' <= c /\ (finished p' -> c' = c /\ p' = outcome r).
Proof.
  induction p as [a| |init k IH|pool k IH|pool b k IH|b k IH|b i k IH|b i v k IH]; intros c r m I E c' m' p' T; cbn [ev] in E; try discriminate.
  - injection E as <- <-. inversion T as [|? ? ? ? ? ? St]; subst; [split; [apply le_n|auto]|inversion St].
  - injection E as <- <-. inversion T as [|? ? ? ? ? ? St]; subst; [split; [apply le_n|auto]|inversion St].
  - destruct b as [v|]; [|discriminate]. destruct (ev (k 1)) as [[c1 r']|] eqn:E1; [|discriminate]. injection E as <- <-. inversion T as [|c2 m2 p2 m1 p1 s2 St T']; subst; [split; [lia|intros []]|]. inversion St; subst. rewrite I in *. match goal with H : Some [v] = Some _ |- _ => injection H as <- end. cbn [length] in T'.
    destruct (IH 1 c1 r' _ I E1 _ _ _ T') as [H1 H2]. split; [lia|]. intros F. destruct (H2 F). split; [lia|assumption].
  - destruct b as [v|]; [|discriminate]. destruct i; [|discriminate]. destruct (ev (k v)) as [[c1 r']|] eqn:E1; [|discriminate]. injection E as <- <-. inversion T as [|c2 m2 p2 m1 p1 s2 St T']; subst; [split; [lia|intros []]|].
    inversion St; subst; rewrite I in *; match goal with H : Some [v] = Some _ |- _ => injection H as <- end; cbn [nth_error] in *; [|discriminate]. match goal with H : Some v = Some _ |- _ => injection H as <- end.
    destruct (IH v c1 r' _ I E1 _ _ _ T') as [H1 H2]. split; [lia|]. intros F. destruct (H2 F). split; [lia|assumption].
Qed.
Lemma ev_bind {A B} (p : prog A) (f : A -> prog B) : forall c a c2 r, ev p = Some (c, Some a) -> ev (f a) = Some (c2, r) -> ev (bind p f) = Some (c + c2, r).
Proof.
  induction p as [x| |init k IH|pool k IH|pool b k IH|b k IH|b i k IH|b i v k IH]; intros c a c2 r E F; cbn [ev bind] in *; try discriminate.
  - injection E as <- <-. exact F.
  - destruct b as [v|]; [|discriminate]. destruct (ev (k 1)) as [[c1 r1]|] eqn:E1; [|discriminate]. injection E as <- ->. rewrite (IH 1 _ _ _ _ E1 F). reflexivity.
  - destruct b as [v|]; [|discriminate]. destruct i; [|discriminate]. destruct (ev (k v)) as [[c1 r1]|] eqn:E1; [|discriminate]. injection E as <- ->. rewrite (IH v _ _ _ _ E1 F). reflexivity.
Qed.
Lemma ev_bind_panic {A B} (p : prog A) (f : A -> prog B) : forall c, ev p = Some (c, None) -> ev (bind p f) = Some (c, None).
Proof.
  induction p as [x| |init k IH|pool k IH|pool b k IH|b k IH|b i k IH|b i v k IH]; intros c E; cbn [ev bind] in *; try discriminate.
  - injection E as <-. reflexivity.
  - destruct b as [v|]; [|discriminate]. destruct (ev (k 1)) as [[c1 r1]|] eqn:E1; [|discriminate]. injection E as <- ->. rewrite (IH 1 _ E1). reflexivity.
  - destruct b as [v|]; [|discriminate]. destruct i; [|discriminate]. destruct (ev (k v)) as [[c1 r1]|] eqn:E1; [|discriminate]. injection E as <- ->. rewrite (IH v _ E1). reflexivity.
Qed.
(** p makes at most c steps. *)
Definition within {A} (c : nat) (p : prog A) : Prop := exists c' r, ev p = Some (c', r) /\ c' <= c.
Lemma within_bind {A B} (p : prog A) (f : A -> prog B) c d : within c p -> (forall a, within d (f a)) -> within (c + d) (bind p f).
Proof.
  intros [c' [[a|] [E L]]] F.
  - destruct (F a) as [d' [r [E' L']]]. exists (c' + d'), r. split; [exact (ev_bind _ _ _ _ _ _ E E')|lia].
  - exists c', None. split; [exact (ev_bind_panic _ _ _ E)|lia].
Qed.
Lemma within_more {A} c d (p : prog A) : within c p -> c <= d -> within d p.
Proof. intros [c' [r [E L]]] H. exists c', r. split; [exact E|lia]. Qed.
Lemma within_ret {A} (a : A) : within 0 (Ret a).
Proof. exists 0, (Some a). split; [reflexivity|lia]. Qed.
Lemma within_panic {A} c : within c (@Panic A).
Proof. exists 0, None. split; [reflexivity|lia]. Qed.
Lemma release_static k n : ev (release (Sl (Static k) n)) = Some (1, Some tt).
Proof. reflexivity. Qed.

(** ** Trees of texts with leaves whose Match uses no memory; k bounds the depth. *)
Definition leaf (m : Matcher) : Prop := match m with MAnyOf _ | MEveryOf _ | MBTree _ _ _ _ _ _ | MRow _ _ => False | _ => True end.
Inductive plain : nat -> Matcher -> Prop :=
  | pl_leaf k m : leaf m -> plain k m
  | pl_tree k t l r ll rl len : t <> [] -> (forall x, l = Some x -> plain k x) -> (forall x, r = Some x -> plain k x) -> plain (S k) (MBTree (MText t) l r ll rl len).
Lemma plain_more k m : plain k m -> forall k', k <= k' -> plain k' m.
Proof.
  intros H. induction H as [k m L|k t l r ll rl len N Hl IHl Hr IHr]; intros k' Le; [constructor; exact L|]. destruct k' as [|k']; [lia|]. constructor; [exact N| |].
  - intros x E. apply IHl; [exact E|lia].
  - intros x E. apply IHr; [exact E|lia].
Qed.
Lemma leaf_match m s : leaf m -> within 0 (matching m s).
Proof.
  intros L. unfold matching. assert (P : mMatch (msem m) s = pure (Match m s)) by (destruct m; try destruct L; reflexivity). rewrite P. destruct (Match m s); [apply within_ret|apply within_panic].
Qed.
Lemma opt_within c (m : option Matcher) s : (forall x, m = Some x -> within c (matching x s)) -> within c (m_opt_match (match m with Some x => Some (msem x) | None => None end) s).
Proof. intros H. destruct m as [x|]; cbn [m_opt_match]; [apply H; reflexivity|]. eapply within_more; [apply within_ret|apply Nat.le_0_l]. Qed.
Lemma Index_bound sub : sub <> [] -> forall s n i, Index_ s sub n = Some i -> n <= i < n + length s.
Proof. intros N s. induction s as [|z s IH]; intros n i E; cbn [Index_] in E; destruct (HasPrefix _ sub) eqn:H; try discriminate.
  - destruct sub; [contradiction|discriminate].
  - injection E as <-. cbn [length]. lia.
  - apply IH in E. cbn [length]. lia.
Qed.
Lemma loop_within t l r s n A B : t <> [] -> length s <= n -> (forall x s', l = Some x -> length s' <= n -> within A (matching x s')) -> (forall x s', r = Some x -> length s' <= n -> within B (matching x s')) ->
  forall fuel offset limit, (0 <= offset)%Z -> within (Z.to_nat (limit - offset) * (2 + A + B)) (m_btree_loop fuel (msem (MText t)) (match l with Some x => Some (msem x) | None => None end) (match r with Some x => Some (msem x) | None => None end) s offset limit).
Proof.
  intros Nt Ls Hl Hr. induction fuel as [|f IH]; intros offset limit Lo; [apply within_panic|]. cbn [m_btree_loop]. destruct (Z.ltb_spec offset limit) as [Lt|Ge]; [|eapply within_more; [apply within_ret|apply Nat.le_0_l]].
  destruct (slice s (Z.to_nat offset) (Z.to_nat limit)) as [mid|] eqn:Slc; [|apply within_panic]. cbn [msem mIndex bind]. destruct (index_of mid t) as [i|] eqn:Ix; [|eapply within_more; [apply within_ret|apply Nat.le_0_l]].
  pose proof (Index_bound t Nt mid 0 i Ix) as [_ Li]. assert (Lm : Z.to_nat offset + i < Z.to_nat limit /\ Z.to_nat limit <= length s).
  { unfold slice in Slc. destruct ((Z.to_nat offset <=? Z.to_nat limit) && (Z.to_nat limit <=? length s)) eqn:C; [|discriminate]. apply andb_prop in C. destruct C as [C1 C2]. apply Nat.leb_le in C1, C2. injection Slc as <-. rewrite firstn_length, skipn_length in Li. lia. }
  destruct Lm as [Lm1 Lm2]. destruct (Nat.ltb_spec (length s) (Z.to_nat offset + i)); [lia|]. set (at_ := Z.to_nat offset + i) in *.
  assert (Wd : 1 <= snd (decode (skipn at_ s))) by (apply decode_width; intros E; apply (f_equal (@length Z)) in E; rewrite skipn_length in E; cbn in E; lia).
  set (rest := m_btree_loop f _ _ _ _ _ limit). assert (Rest : within ((Z.to_nat (limit - offset) - 1) * (2 + A + B)) rest).
  { eapply within_more; [apply IH; lia|]. apply Nat.mul_le_mono_r. lia. }
  assert (K : within (A + ((1 + B) + (1 + (Z.to_nat (limit - offset) - 1) * (2 + A + B)))) (l0 <- m_opt_match (match l with Some x => Some (msem x) | None => None end) (firstn at_ s) ;;
     ok <- (if l0 : bool then m_try_right (match r with Some x => Some (msem x) | None => None end) s at_ (Static (length t)) 1 else Ret false) ;;
     if ok : bool then release (Sl (Static (length t)) 1) ;;; Ret true else release (Sl (Static (length t)) 1) ;;; rest)).
  { apply within_bind; [apply opt_within; intros x E; apply Hl; [exact E|rewrite firstn_length; lia]|]. intros l0. apply within_bind.
    - destruct l0; [|eapply within_more; [apply within_ret|apply Nat.le_0_l]]. cbn [m_try_right]. set (arg := if length s <=? at_ + length t then [] else skipn (at_ + length t) s).
      assert (W : within B (m_opt_match (match r with Some x => Some (msem x) | None => None end) arg)). { apply opt_within. intros x E. apply Hr; [exact E|]. unfold arg. destruct (_ <=? _); [cbn; lia|rewrite skipn_length; lia]. }
      destruct (within_bind _ (fun ok : bool => if ok then Ret true else Ret false) B 0 W) as [c [q [E L]]]; [intros [|]; apply within_ret|]. exists (S c), q. split; [|lia]. cbn [ev]. fold arg. rewrite E. reflexivity.
    - intros ok. assert (R1 : within 1 (release (Sl (Static (length t)) 1))) by (exists 1, (Some tt); split; [apply release_static|lia]).
      destruct ok; (apply within_bind; [exact R1|intros _]); [eapply within_more; [apply within_ret|apply Nat.le_0_l]|exact Rest]. }
  eapply within_more; [exact K|]. assert (1 <= Z.to_nat (limit - offset)) by lia. nia.
Qed.
Lemma plain_within k m : plain k m -> forall s n, length s <= n -> within ((2 * n + 2) ^ k - 1) (matching m s).
Proof.
  intros H. induction H as [k m L|k t l r ll rl len N Hl IHl Hr IHr]; intros s n Ls; [eapply within_more; [apply leaf_match; exact L|lia]|].
  unfold matching. cbn [msem mMatch]. unfold m_btree_match. destruct (offset_limit ll rl len (length s)) as [offset limit] eqn:OL.
  assert (B : (0 <= offset)%Z /\ (limit <= Z.of_nat (length s))%Z).
  { unfold offset_limit in OL. destruct (_ && _); injection OL as <- <-; [lia|]. split; [destruct (Z.leb_spec 0 ll); lia|destruct (Z.leb_spec 0 rl); lia]. }
  destruct B as [B1 B2]. set (X := (2 * n + 2) ^ k). assert (1 <= X) by (unfold X; pose proof (Nat.pow_nonzero (2 * n + 2) k ltac:(lia)); lia).
  eapply within_more; [apply (loop_within t l r s n (X - 1) (X - 1) N Ls)|].
  - intros x s' E L'. apply (IHl x E s' n L').
  - intros x s' E L'. apply (IHr x E s' n L').
  - exact B1.
  - cbn [Nat.pow]. fold X. assert (Z.to_nat (limit - offset) <= n) by lia. replace (2 + (X - 1) + (X - 1)) with (2 * X) by lia. nia.
Qed.
Lemma optimize_plain k m : plain k m -> plain k (optimizeMatcher m).
Proof.
  intros H. induction H as [k m L|k t l r ll rl len N Hl IHl Hr IHr].
  - destruct m; try destruct L; cbn [optimizeMatcher]; try (constructor; exact I). destruct seps; constructor; exact I. destruct l as [|c [|]]; try (constructor; exact I). destruct not; constructor; exact I.
  - cbn [optimizeMatcher]. assert (T : plain (S k) (MBTree (MText t) (match l with Some x => Some (optimizeMatcher x) | None => None end) (match r with Some x => Some (optimizeMatcher x) | None => None end) ll rl len)).
    { constructor; [exact N| |]; intros x E; [destruct l as [y|]|destruct r as [y|]]; try discriminate; injection E as <-; auto. }
    destruct l as [x|]; [destruct (optimizeMatcher x)|]; (destruct r as [y|]; [destruct (optimizeMatcher y)|]); try exact T; try (constructor; exact I).
Qed.
(** ** Compiling texts and stars *)
Definition star (seps : list Z) : Matcher := optimizeMatcher (optimizeMatcher (MAny seps)).
Lemma star_case seps : (seps = [] /\ star seps = MSuper) \/ (seps <> [] /\ star seps = MAny seps).
Proof. destruct seps as [|z r]; [left; split; reflexivity|right; split; [discriminate|reflexivity]]. Qed.
Lemma star_len seps : Len (star seps) = (-1)%Z.
Proof. destruct (star_case seps) as [[_ ->]|[_ ->]]; reflexivity. Qed.
Definition is_text (m : Matcher) : bool := match m with MText _ => true | _ => false end.
Lemma star_not_text seps : is_text (star seps) = false.
Proof. destruct (star_case seps) as [[_ ->]|[_ ->]]; reflexivity. Qed.
Fixpoint alternating (seps : list Z) (ms : list Matcher) : Prop :=
  match ms with [] => True | m :: r => ((exists t, t <> [] /\ m = MText t) \/ m = star seps) /\ match r with m' :: _ => is_text m <> is_text m' | [] => True end /\ alternating seps r end.
Lemma text_len t : (0 <= Len (MText t))%Z.
Proof. unfold Len. cbn. lia. Qed.
Lemma alt_skipn seps k : forall ms, alternating seps ms -> alternating seps (skipn k ms).
Proof. induction k as [|k IH]; intros ms H; [exact H|]. destruct ms as [|m r]; [exact I|]. apply IH. apply H. Qed.
Lemma alt_firstn seps k : forall ms, alternating seps ms -> alternating seps (firstn k ms).
Proof.
  induction k as [|k IH]; intros ms H; [exact I|]. destruct ms as [|m r]; [exact I|]. destruct H as [A [B C]]. cbn [firstn alternating]. split; [exact A|]. split; [|apply IH; exact C]. destruct k as [|k]; [exact I|]. destruct r as [|m' r]; [exact I|]. exact B.
Qed.
Lemma glue_kinds_text sep ms : existsb is_text ms = true -> glue_kinds sep ms = None.
Proof.
  induction ms as [|m r IH]; intros H; [discriminate|]. cbn [existsb] in H. cbn [glue_kinds]. destruct (is_text m) eqn:E; [destruct m; try discriminate; reflexivity|]. cbn [orb] in H. rewrite (IH H). destruct (glue_kind m) as [[s k]|]; [|reflexivity]. destruct (zs_eqb s sep); reflexivity.
Qed.
Lemma alt_no_glue seps ms : alternating seps ms -> glueMatchers ms = None.
Proof.
  intros H. destruct ms as [|a [|b r]]; [reflexivity|reflexivity|]. destruct H as [A [B [C _]]]. unfold glueMatchers.
  assert (T : existsb is_text (a :: b :: r) = true).
  { cbn [existsb]. destruct A as [[t [_ ->]]| ->]; [reflexivity|]. destruct C as [[t [_ ->]]| ->]; [cbn; apply orb_true_r|]. destruct B. reflexivity. }
  assert (L : existsb (fun m => (Len m =? -1)%Z) (a :: b :: r) = true).
  { cbn [existsb]. destruct A as [[t [_ ->]]| ->]; [|rewrite star_len; reflexivity]. destruct C as [[t' [_ ->]]| ->]; [destruct B; reflexivity|]. rewrite star_len. cbn [Z.eqb]. apply orb_true_intro. right. reflexivity. }
  assert (E : glueMatchersAsEvery (a :: b :: r) = None).
  { unfold glueMatchersAsEvery. cbn [length Nat.leb]. destruct (glue_kind a) as [[s k]|]; [|reflexivity]. rewrite (glue_kinds_text s _ T). reflexivity. }
  rewrite E. unfold glueMatchersAsRow. cbn [length Nat.leb]. rewrite L. reflexivity.
Qed.
Lemma alt_minimize seps ms : alternating seps ms -> minimizeMatchers ms = ms.
Proof.
  intros H. unfold minimizeMatchers. assert (F : forall l, fold_left (consider ms) l None = None).
  { induction l as [|[a b] l IH]; [reflexivity|]. cbn [fold_left consider]. rewrite (alt_no_glue seps _ (alt_firstn seps _ _ (alt_skipn seps _ _ H))). exact IH. }
  destruct (length ms) as [|n]; [reflexivity|]. cbn [minimize_f]. rewrite F. reflexivity.
Qed.
Definition count (ms : list Matcher) : nat := length (filter is_text ms).
Lemma longest_spec seps : forall ms i0 mx found, alternating seps ms -> (mx = -1 /\ found = None \/ 0 <= mx /\ found <> None)%Z ->
  match longest ms i0 mx found with
  | None => found = None /\ count ms = 0
  | Some (i, v) => Some (i, v) = found \/ (exists t k, t <> [] /\ v = MText t /\ i = i0 + k /\ nth_error ms k = Some v)
  end.
Proof.
  induction ms as [|m r IH]; intros i0 mx found H Hm; cbn [longest].
  - destruct found as [[i v]|]; [left; reflexivity|split; reflexivity].
  - destruct H as [A [_ H]]. destruct A as [[t [Nt ->]]| ->].
    + pose proof (text_len t) as Lt. destruct (negb (Len (MText t) =? -1)%Z && (mx <=? Len (MText t))%Z) eqn:C.
      * specialize (IH (S i0) (Len (MText t)) (Some (i0, MText t)) H ltac:(right; split; [exact Lt|discriminate])). destruct (longest r _ _ _) as [[i v]|]; [|destruct IH; discriminate]. right. destruct IH as [E|[t' [k [N' [-> [-> E]]]]]]; [injection E as -> ->; exists t, 0; rewrite Nat.add_0_r; auto|]. exists t', (S k). split; [exact N'|]. split; [reflexivity|]. split; [lia|exact E].
      * specialize (IH (S i0) mx found H Hm). destruct (longest r _ _ _) as [[i v]|].
        -- destruct IH as [E|[t' [k [N' [-> [-> E]]]]]]; [left; exact E|]. right. exists t', (S k). split; [exact N'|]. split; [reflexivity|]. split; [lia|exact E].
        -- exfalso. destruct IH as [-> _]. destruct Hm as [[-> _]|[_ Hm]]; [|contradiction]. apply andb_false_iff in C. destruct C as [C|C]; [apply negb_false_iff, Z.eqb_eq in C|apply Z.leb_gt in C]; lia.
    + rewrite star_len. cbn [Z.eqb negb andb]. specialize (IH (S i0) mx found H Hm). unfold count in *. cbn [filter]. rewrite star_not_text. destruct (longest r _ _ _) as [[i v]|]; [|exact IH].
      destruct IH as [E|[t' [k [N' [-> [-> E]]]]]]; [left; exact E|]. right. exists t', (S k). split; [exact N'|]. split; [reflexivity|]. split; [lia|exact E].
Qed.
Lemma count_app a b : count (a ++ b) = count a + count b.
Proof. unfold count. rewrite filter_app, app_length. reflexivity. Qed.
Lemma compile_plain seps : forall fuel ms m, alternating seps ms -> compileMatchers_f fuel ms = Some m -> plain (count ms) m.
Proof.
  induction fuel as [|f IH]; intros ms m H E; [discriminate|]. cbn [compileMatchers_f] in E. destruct ms as [|a [|b r]]; [discriminate| |].
  - injection E as ->. destruct H as [[[t [_ ->]]| ->] _]; [constructor; exact I|]. destruct (star_case seps) as [[_ ->]|[_ ->]]; constructor; exact I.
  - rewrite (alt_no_glue seps _ H) in E. set (ms := a :: b :: r) in *. pose proof (longest_spec seps ms 0 (-1) None H ltac:(auto)) as L. destruct (longest ms 0 (-1) None) as [[i v]|].
    + destruct L as [L|[t [k [Nt [-> [-> Nk]]]]]]; [discriminate|]. cbn [Nat.add] in E.
      assert (Sp : ms = firstn k ms ++ MText t :: skipn (S k) ms).
      { rewrite <- (firstn_skipn k ms) at 1. f_equal. clear - Nk. revert k Nk. induction ms as [|x l IHl]; intros [|k] Nk; try discriminate; [injection Nk as ->; reflexivity|]. cbn [skipn]. apply IHl. exact Nk. }
      assert (Cn : S (count (firstn k ms) + count (skipn (S k) ms)) = count ms) by (rewrite Sp at 3; rewrite count_app; unfold count at 4; cbn [filter is_text length]; fold (count (skipn (S k) ms)); lia). rewrite <- Cn. clear Cn.
      set (l := firstn k ms) in *. set (q := skipn (S k) ms) in *. assert (Hl : alternating seps l) by (apply alt_firstn; exact H). assert (Hq : alternating seps q) by (apply alt_skipn; exact H).
      destruct (match l with [] => _ | _ => _ end) as [l'|] eqn:El; [|discriminate]. destruct (match q with [] => _ | _ => _ end) as [q'|] eqn:Eq; [|discriminate]. injection E as <-. unfold NewBTree. constructor; [exact Nt| |].
      * intros x ->. apply (plain_more (count l)); [|lia]. destruct l as [|l0 l1]; [discriminate|]. destruct (compileMatchers_f f (l0 :: l1)) as [y|] eqn:Ey; [|discriminate]. injection El as ->. exact (IH _ _ Hl Ey).
      * intros x ->. apply (plain_more (count q)); [|lia]. destruct q as [|l0 l1]; [discriminate|]. destruct (compileMatchers_f f (l0 :: l1)) as [y|] eqn:Ey; [|discriminate]. injection Eq as ->. exact (IH _ _ Hq Ey).
    + exfalso. destruct L as [_ L]. unfold ms, count in L. cbn [filter] in L. destruct H as [A [B [C _]]]. destruct A as [[t [_ ->]]| ->]; [discriminate|]. destruct C as [[t [_ ->]]| ->]; [rewrite star_not_text in L; discriminate|]. destruct B. reflexivity.
Qed.
(** The matchers of texts and stars. *)
Definition matcher_of (seps : list Z) (n : Node) : Matcher := match n with NText t => MText t | _ => star seps end.
Lemma map_opt_nodes f seps ns : Forall text_or_star ns -> map_opt (fun c => option_map optimizeMatcher (compile_f (S f) c seps)) ns = Some (map (matcher_of seps) ns).
Proof. intros H. induction H as [|n ns A H IH]; [reflexivity|]. cbn [map_opt map]. rewrite IH. destruct n; try destruct A; reflexivity. Qed.
Lemma written_alternating seps a ns p : writes_seq a ns p -> Forall text_or_star ns -> alternating seps (map (matcher_of seps) ns).
Proof.
  intros W. induction W as [a|a n ns s t Wn Ap W IH] using writes_seq_ind; intros F; [exact I|]. inversion F as [|? ? A F']; subst. cbn [map alternating]. split; [|split; [|apply IH; exact F']].
  - destruct n; try destruct A; cbn [matcher_of]; [left|right; reflexivity]. inversion Wn; subst. eexists. split; [|reflexivity]. match goal with H : ?c <> [] |- _ => destruct c as [|z c]; [contradiction|] end. cbn [utf8 flat_map]. intros E. apply app_eq_nil in E. destruct E as [E _]. exact (encode_nonempty _ E).
  - destruct ns as [|n' ns']; [exact I|]. inversion F' as [|? ? A' _]; subst. cbn [map]. destruct n; try destruct A; destruct n'; try destruct A'; cbn [matcher_of apart is_text] in *; try rewrite star_not_text; try discriminate; try contradiction.
Qed.
Lemma compile_pattern seps ns fuel m : Forall text_or_star ns -> alternating seps (map (matcher_of seps) ns) -> compile_f fuel (NPattern ns) seps = Some m ->
  ns = [] /\ m = MNothing \/ exists m', compileMatchers (map (matcher_of seps) ns) = Some m' /\ m = optimizeMatcher m'.
Proof.
  intros F A E. destruct fuel as [|[|f]]; [discriminate| |].
  - destruct ns as [|n ns]; [injection E as <-; left; split; reflexivity|]. cbn [compile_f map_opt option_map] in E. discriminate.
  - destruct ns as [|n ns]; [injection E as <-; left; split; reflexivity|]. right. change (compile_f (S (S f)) (NPattern (n :: ns)) seps) with (match map_opt (fun c => option_map optimizeMatcher (compile_f (S f) c seps)) (n :: ns) with Some ms => option_map optimizeMatcher (compileMatchers (minimizeMatchers ms)) | None => None end) in E.
    rewrite (map_opt_nodes f seps _ F) in E. rewrite (alt_minimize seps _ A) in E. destruct (compileMatchers _) as [m'|]; [|discriminate]. injection E as <-. eauto.
Qed.
Lemma count_texts seps ns : count (map (matcher_of seps) ns) = texts ns \/ ~ Forall text_or_star ns.
Proof.
  unfold count, texts. induction ns as [|n ns IH]; [left; reflexivity|]. destruct IH as [IH|IH]; [|right; intros F; inversion F; contradiction]. destruct n; try (right; intros F; inversion F; contradiction); left; cbn [map matcher_of filter]; [cbn [is_text length]; rewrite IH; reflexivity|rewrite star_not_text; exact IH].
Qed.

(** ** The exponential case *)
Definition tB : Matcher := MText (lit "b").
Definition tA : Matcher := MText (lit "a").
Fixpoint row_of (seps : list Z) (n : nat) : list Matcher := match n with 0 => [tB; star seps] | S k => row_of seps k ++ [tA; star seps] end.
Fixpoint raw (seps : list Z) (n : nat) : Matcher := match n with 0 => NewBTree tB None (Some (star seps)) | S k => NewBTree tA (Some (raw seps k)) (Some (star seps)) end.
Fixpoint tree_of (seps : list Z) (n : nat) : Matcher :=
  match n with 0 => match seps with [] => MPrefix (lit "b") | _ => MPrefixAny (lit "b") seps end | S k => MBTree tA (Some (tree_of seps k)) (Some (star seps)) (-1) (-1) (-1) end.
Lemma row_texts seps n : Forall (fun m => m = tA \/ m = tB \/ m = star seps) (row_of seps n).
Proof. induction n as [|n IH]; cbn [row_of]; [constructor; [auto|constructor; [auto|constructor]]|]. apply Forall_app. split; [exact IH|constructor; [auto|constructor; [auto|constructor]]]. Qed.
Lemma longest_last seps : forall ms i mx found, Forall (fun m => m = tA \/ m = tB \/ m = star seps) ms -> (mx <= 1)%Z -> longest (ms ++ [tA; star seps]) i mx found = Some (i + length ms, tA).
Proof.
  induction ms as [|m ms IH]; intros i mx found F L; cbn [app longest length].
  - change (Len tA) with 1%Z. rewrite star_len. cbn [Z.eqb negb andb]. destruct (Z.leb_spec mx 1); [|lia]. rewrite Nat.add_0_r. reflexivity.
  - inversion F as [|? ? A F']; subst. replace (i + S (length ms)) with (S i + length ms) by lia. destruct (_ && _); apply IH; try assumption. destruct A as [->|[->| ->]]; [change (Len tA) with 1%Z|change (Len tB) with 1%Z|rewrite star_len]; lia.
Qed.
Lemma row_alternating seps n : alternating seps (row_of seps n) /\ exists r, row_of seps n = r ++ [star seps].
Proof.
  assert (Sn : forall ms, alternating seps (ms ++ [star seps]) -> alternating seps ((ms ++ [star seps]) ++ [tA; star seps])).
  { induction ms as [|m ms IH]; intros H.
    - cbn [app alternating]. split; [right; reflexivity|]. split; [rewrite star_not_text; discriminate|]. split; [left; eexists; split; [|reflexivity]; discriminate|]. split; [rewrite star_not_text; discriminate|]. split; [right; reflexivity|auto].
    - cbn [app alternating] in H |- *. destruct H as [A [B C]]. split; [exact A|]. split; [destruct ms; exact B|exact (IH C)]. }
  induction n as [|n [IH [r E]]]; cbn [row_of].
  - split; [|exists [tB]; reflexivity]. cbn [alternating]. split; [left; eexists; split; [|reflexivity]; discriminate|]. split; [rewrite star_not_text; discriminate|]. split; [right; reflexivity|auto].
  - rewrite E in *. split; [apply Sn; exact IH|]. exists ((r ++ [star seps]) ++ [tA]). rewrite <- !app_assoc. reflexivity.
Qed.
Lemma raw_len seps n : Len (raw seps n) = (-1)%Z.
Proof.
  assert (G : forall v l r, Len (NewBTree v l (Some r)) = (-1)%Z \/ Len r <> (-1)%Z).
  { intros v l r. destruct (Z.eq_dec (Len r) (-1)) as [E|E]; [left|right; exact E]. unfold NewBTree. rewrite E. cbn [Z.eqb negb]. rewrite andb_false_r. reflexivity. }
  destruct n; cbn [raw]; [destruct (G tB None (star seps)) as [E|E]|destruct (G tA (Some (raw seps n)) (star seps)) as [E|E]]; try exact E; rewrite star_len in E; contradiction.
Qed.
Lemma row_length seps n : length (row_of seps n) = 2 * n + 2.
Proof. induction n as [|n IH]; cbn [row_of]; [reflexivity|]. rewrite app_length, IH. cbn [length]. lia. Qed.
Lemma compile_row seps : forall n fuel, 2 * n + 2 <= fuel -> compileMatchers_f fuel (row_of seps n) = Some (raw seps n).
Proof.
  induction n as [|n IH]; intros fuel Lf; (destruct fuel as [|fuel]; [lia|]).
  - cbn [row_of]. pose proof (alt_no_glue seps _ (proj1 (row_alternating seps 0))) as G. cbn [row_of] in G. cbn [compileMatchers_f]. rewrite G. cbn [longest]. change (Len tB) with 1%Z. rewrite star_len. cbn [Z.eqb negb andb Z.leb Z.compare firstn skipn]. destruct fuel as [|fuel]; [lia|]. reflexivity.
  - pose proof (alt_no_glue seps _ (proj1 (row_alternating seps (S n)))) as G. pose proof (longest_last seps (row_of seps n) 0 (-1) None (row_texts seps n) ltac:(lia)) as Lg. pose proof (row_length seps n) as Ln. cbn [row_of] in G |- *.
    destruct (row_of seps n) as [|x [|y r]] eqn:Er; [cbn in Ln; lia|cbn in Ln; lia|]. cbn [app] in G, Lg |- *. cbn [compileMatchers_f]. rewrite G, Lg. cbn [Nat.add].
    change (x :: y :: r ++ [tA; star seps]) with ((x :: y :: r) ++ [tA; star seps]). rewrite firstn_app, firstn_all, Nat.sub_diag, firstn_O, app_nil_r.
    replace (skipn (S (length (x :: y :: r))) ((x :: y :: r) ++ [tA; star seps])) with [star seps] by (rewrite skipn_app, skipn_all2 by lia; replace (S (length (x :: y :: r)) - length (x :: y :: r)) with 1 by lia; reflexivity).
    rewrite IH by lia. destruct fuel as [|fuel]; [lia|]. reflexivity.
Qed.
Lemma optimize_raw seps n : optimizeMatcher (raw seps n) = tree_of seps n.
Proof.
  assert (Os : optimizeMatcher (star seps) = star seps) by (destruct (star_case seps) as [[_ ->]|[N ->]]; [reflexivity|destruct seps; [contradiction|reflexivity]]).
  induction n as [|n IH].
  - cbn [raw tree_of]. unfold NewBTree, tB. cbn [optimizeMatcher]. rewrite Os. destruct seps as [|z r]; reflexivity.
  - cbn [raw tree_of]. unfold NewBTree. rewrite raw_len, star_len. unfold tA. cbn [optimizeMatcher]. rewrite Os, IH. cbn [Z.eqb negb andb]. rewrite andb_false_r. destruct n as [|n]; cbn [tree_of]; destruct seps as [|z r]; reflexivity.
Qed.
Fixpoint steps_of (k n : nat) : nat := match k with 0 => 0 | S k' => list_sum (map (fun i => S (steps_of k' i)) (seq 0 n)) end.
Lemma slice_as n o : o <= n -> slice (as_text n) o n = Some (as_text (n - o)).
Proof.
  intros L. unfold slice, as_text. rewrite repeat_length. destruct (Nat.leb_spec o n); [|lia]. destruct (Nat.leb_spec n n); [|lia]. cbn [andb]. f_equal. rewrite <- (repeat_length 97%Z n) at 1. replace n with (o + (n - o)) at 2 by lia. rewrite repeat_app, skipn_app, skipn_all2 by (rewrite repeat_length; lia). rewrite !repeat_length, Nat.sub_diag. cbn [skipn app]. apply firstn_all2. rewrite repeat_length. lia.
Qed.
Lemma firstn_as n o : o <= n -> firstn o (as_text n) = as_text o.
Proof. intros L. unfold as_text. replace n with (o + (n - o)) by lia. rewrite repeat_app, firstn_app, firstn_all2 by (rewrite repeat_length; lia). rewrite repeat_length, Nat.sub_diag, firstn_O, app_nil_r. reflexivity. Qed.
Lemma skipn_as n o : o < n -> exists r, skipn o (as_text n) = 97%Z :: r.
Proof. intros L. unfold as_text. replace n with (o + S (n - o - 1)) by lia. rewrite repeat_app, skipn_app, skipn_all2 by (rewrite repeat_length; lia). rewrite repeat_length, Nat.sub_diag. cbn [skipn app repeat]. eauto. Qed.
Lemma loop_exact left right k n : (forall i, i < n -> ev (mMatch left (as_text i)) = Some (steps_of k i, Some false)) ->
  forall j fuel o, n = o + j -> j < fuel -> ev (m_btree_loop fuel (msem tA) (Some left) right (as_text n) (Z.of_nat o) (Z.of_nat n)) = Some (list_sum (map (fun i => S (steps_of k i)) (seq o j)), Some false).
Proof.
  intros Hl. induction j as [|j IH]; intros fuel o En Lf; (destruct fuel as [|fuel]; [lia|]); cbn [m_btree_loop].
  - destruct (Z.ltb_spec (Z.of_nat o) (Z.of_nat n)); [lia|]. reflexivity.
  - destruct (Z.ltb_spec (Z.of_nat o) (Z.of_nat n)); [|lia]. rewrite !Nat2Z.id. rewrite slice_as by lia. replace (n - o) with (S j) by lia. cbn [msem tA mIndex bind]. change (index_of (as_text (S j)) (lit "a")) with (Some 0).
    cbn iota. rewrite Nat.add_0_r. unfold as_text at 1. rewrite repeat_length. destruct (Nat.ltb_spec n o); [lia|]. rewrite firstn_as by lia. cbn [m_opt_match]. destruct (skipn_as n o ltac:(lia)) as [r Er]. rewrite Er.
    replace (snd (decode (97%Z :: r))) with 1 by reflexivity. replace (Z.of_nat o + Z.of_nat (0 + 1))%Z with (Z.of_nat (S o)) by lia. cbn [seq map list_sum fold_right]. replace (S (steps_of k o) + fold_right Nat.add 0 (map (fun i => S (steps_of k i)) (seq (S o) j))) with (steps_of k o + (1 + list_sum (map (fun i => S (steps_of k i)) (seq (S o) j)))) by (unfold list_sum; lia).
    eapply ev_bind; [apply Hl; lia|]. cbn iota. cbn [bind]. eapply ev_bind; [apply release_static|]. apply IH; lia.
Qed.
Lemma tree_exact seps : forall k n, ev (matching (tree_of seps k) (as_text n)) = Some (steps_of k n, Some false).
Proof.
  induction k as [|k IH]; intros n.
  - cbn [tree_of steps_of]. destruct seps as [|z r]; destruct n as [|n]; reflexivity.
  - cbn [tree_of steps_of]. unfold matching. cbn [msem mMatch]. unfold m_btree_match. unfold offset_limit. cbn [Z.eqb negb andb Z.leb Z.compare]. unfold as_text at 1 2. rewrite repeat_length.
    cbn [Pos.eqb negb andb]. change 0%Z with (Z.of_nat 0).
    exact (loop_exact (msem (tree_of seps k)) (Some (msem (star seps))) k n (fun i _ => IH i) n (S (length (as_text n))) 0 eq_refl ltac:(unfold as_text; rewrite repeat_length; lia)).
Qed.
Lemma steps_next k n : steps_of (S k) (S n) = steps_of (S k) n + S (steps_of k n).
Proof. cbn [steps_of]. rewrite seq_S, map_app, list_sum_app. cbn. lia. Qed.
Lemma steps_power : forall n k, n <= k -> S (steps_of k n) = 2 ^ n.
Proof.
  induction n as [|n IH]; intros k L; [destruct k; reflexivity|]. destruct k as [|k]; [lia|]. rewrite steps_next. pose proof (IH (S k) ltac:(lia)) as A. pose proof (IH k ltac:(lia)) as B. cbn [Nat.pow]. lia.
Qed.
Definition pattern_nodes (n : nat) : list Node := [NText (lit "b"); NAny] ++ concat (repeat [NText (lit "a"); NAny] n).
Lemma pattern_written n : writes_seq false (pattern_nodes n) (stars_pattern n).
Proof.
  assert (Tx : forall c, (c = 97 \/ c = 98)%Z -> writes false (NText [c]) [c]).
  { intros c Hc. assert (E : encode c = [c]) by (destruct Hc as [->| ->]; reflexivity). replace [c] with (utf8 [c]) at 1 by (unfold utf8; cbn; rewrite E; reflexivity). constructor; [discriminate|]. replace [c] with (encode c ++ []) at 2 by (rewrite E; reflexivity). constructor; [|destruct Hc as [->| ->]; intros H; cbn in H; repeat (destruct H as [H|H]; [discriminate H|]); exact H|destruct Hc as [->| ->]; discriminate|constructor].
    split; [|split; destruct Hc as [->| ->]; discriminate]. destruct Hc as [->| ->]; (split; [lia|reflexivity]). }
  assert (W : forall k, writes_seq false (concat (repeat [NText (lit "a"); NAny] k)) (concat (repeat (lit "a*") k))).
  { induction k as [|k IH]; [constructor|]. cbn [repeat concat app]. change (lit "a*" ++ concat (repeat (lit "a*") k)) with (lit "a" ++ (lit "*" ++ concat (repeat (lit "a*") k))). constructor; [apply Tx; left; reflexivity|exact I|]. constructor; [constructor| |exact IH]. destruct k; exact I. }
  unfold pattern_nodes, stars_pattern. change (lit "b*" ++ concat (repeat (lit "a*") n)) with (lit "b" ++ (lit "*" ++ concat (repeat (lit "a*") n))). cbn [app]. constructor; [apply Tx; right; reflexivity|exact I|]. constructor; [constructor| |apply W]. destruct n; exact I.
Qed.
Lemma pattern_matchers seps n : map (matcher_of seps) (pattern_nodes n) = row_of seps n.
Proof.
  unfold pattern_nodes. rewrite map_app. cbn [map matcher_of]. induction n as [|n IH]; [reflexivity|]. cbn [row_of]. rewrite <- IH. rewrite <- app_assoc. f_equal. replace (S n) with (n + 1) by lia. rewrite repeat_app, concat_app, map_app. reflexivity.
Qed.
Lemma pattern_simple n : Forall text_or_star (pattern_nodes n).
Proof. unfold pattern_nodes. apply Forall_app. split; [repeat constructor|]. induction n as [|n IH]; [constructor|]. cbn [repeat concat app]. constructor; [exact I|]. constructor; [exact I|exact IH]. Qed.
Lemma pattern_compiles seps n m : Globs (stars_pattern n) seps m <-> m = tree_of seps n.
Proof.
  assert (Pa : Parse (stars_pattern n) = POk (NPattern (pattern_nodes n))) by (apply C44_parse_written; exists (pattern_nodes n); split; [reflexivity|apply pattern_written]).
  assert (Al : alternating seps (map (matcher_of seps) (pattern_nodes n))) by (rewrite pattern_matchers; apply row_alternating).
  assert (Cm : compileMatchers (row_of seps n) = Some (raw seps n)) by (unfold compileMatchers; apply compile_row; rewrite row_length; lia).
  assert (One : forall fuel m, compile_f fuel (NPattern (pattern_nodes n)) seps = Some m -> m = tree_of seps n).
  { intros fuel m' E. destruct (compile_pattern seps _ fuel m' (pattern_simple n) Al E) as [[X _]|[m2 [X ->]]]; [discriminate|]. rewrite pattern_matchers, Cm in X. injection X as <-. apply optimize_raw. }
  split.
  - intros [t [fuel [E1 E2]]]. rewrite Pa in E1. injection E1 as <-. exact (One _ _ E2).
  - intros ->. destruct (compile_some (weight (NPattern (pattern_nodes n))) (NPattern (pattern_nodes n)) seps (le_n _)) as [m' E]. exists (NPattern (pattern_nodes n)), (weight (NPattern (pattern_nodes n))). split; [exact Pa|]. rewrite E. f_equal. exact (One _ _ E).
Qed.

(** ** Theorems *)
(** A pattern of texts and stars: a match takes at most (2n+2)^k steps, for n bytes and k texts. *)
Theorem C79_texts_and_stars p seps ns m s mem c mem' q : writes_seq false ns p -> Forall text_or_star ns -> Globs p seps m -> in_place mem ->
  takes c (mem, matching m s) (mem', q) -> c < (2 * length s + 2) ^ texts ns.
Proof.
  intros W F [t [fuel [Pa Co]]] I T. rewrite (C44_parse_written (NPattern ns) p ltac:(exists ns; auto)) in Pa. injection Pa as <-. pose proof (written_alternating seps _ _ _ W F) as A.
  assert (P : plain (texts ns) m).
  { destruct (compile_pattern seps ns fuel m F A Co) as [[_ ->]|[m' [E ->]]]; [constructor; exact Logic.I|]. apply optimize_plain. destruct (count_texts seps ns) as [<-|X]; [|contradiction]. exact (compile_plain seps _ _ _ A E). }
  destruct (plain_within _ _ P s (length s) (le_n _)) as [c' [r [E L]]]. destruct (ev_bounds _ _ _ mem I E _ _ _ T) as [B _]. pose proof (Nat.pow_nonzero (2 * length s + 2) (texts ns) ltac:(lia)). lia.
Qed.
(** b*a*a*..a* with n times a* on a text of n times a: exactly 2^n - 1 steps, whatever the separators. *)
Theorem C79_exponential n seps : exists m, Globs (stars_pattern n) seps m /\ (forall m', Globs (stars_pattern n) seps m' -> m' = m) /\
  (forall mem, in_place mem -> takes (2 ^ n - 1) (mem, matching m (as_text n)) (mem, Ret false)) /\
  (forall mem c mem' q, in_place mem -> takes c (mem, matching m (as_text n)) (mem', q) -> c <= 2 ^ n - 1 /\ (finished q -> c = 2 ^ n - 1 /\ q = Ret false)).
Proof.
  exists (tree_of seps n). split; [apply pattern_compiles; reflexivity|]. split; [intros m'; apply pattern_compiles|]. pose proof (tree_exact seps n n) as E. assert (Sn : steps_of n n = 2 ^ n - 1) by (pose proof (steps_power n n (le_n _)); lia). rewrite Sn in E. split.
  - intros mem I. exact (ev_runs _ _ _ mem I E).
  - intros mem c mem' q I T. exact (ev_bounds _ _ _ mem I E _ _ _ T).
Qed.

Lemma above K c : exists m, K * (m + 1) <= 2 ^ m /\ c + 1 < 2 ^ m.
Proof.
  set (j := 2 * K + c + 1). exists (2 * j). assert (P : j < 2 ^ j) by (apply Nat.pow_gt_lin_r; lia). replace (2 * j) with (j + j) at 2 3 by lia. rewrite Nat.pow_add_r. split; unfold j in *; nia.
Qed.
(** No bound that is a power of the sizes of the pattern and the text. *)
Theorem C79_polynomial_refuted : ~ (exists c d, forall p seps m s mem k mem' q, Globs p seps m -> in_place mem -> takes k (mem, matching m s) (mem', q) -> k <= c * (length p + length s + 1) ^ d).
Proof.
  intros [c [d H]]. destruct (above (3 * (d + 1)) c) as [m [B1 B2]]. set (n := (d + 1) * m). destruct (C79_exponential n []) as [t [G [_ [T _]]]].
  assert (I0 : in_place fresh_store) by (intros k; reflexivity). pose proof (H _ _ _ _ _ _ _ _ G I0 (T _ I0)) as X.
  assert (Lp : length (stars_pattern n) = 2 * n + 2) by (unfold stars_pattern; rewrite app_length; cbn [lit]; clear; induction n as [|n IH]; [reflexivity|]; cbn [repeat concat]; rewrite !app_length in *; cbn in *; lia).
  assert (Ls : length (as_text n) = n) by apply repeat_length. rewrite Lp, Ls in X.
  assert (Y : (2 * n + 2 + n + 1) ^ d <= (2 ^ m) ^ d) by (apply Nat.pow_le_mono_l; unfold n; nia).
  assert (Z : 2 ^ n = (2 ^ m) ^ d * 2 ^ m) by (unfold n; replace ((d + 1) * m) with (m * d + m) by lia; rewrite Nat.pow_add_r, Nat.pow_mul_r; reflexivity).
  assert (O : 1 <= (2 ^ m) ^ d) by (pose proof (Nat.pow_nonzero (2 ^ m) d ltac:(lia)); lia). nia.
Qed.

(** The theorems talk about something: a*b*.go has three texts, is compiled, and takes steps on a text it matches. *)
Lemma small_text a c cs : Forall (fun c => 0 < c < 128 /\ ~ In c (special_in a) /\ c <> cEscape)%Z (c :: cs) -> writes a (NText (c :: cs)) (c :: cs).
Proof.
  intros F. assert (E : forall l, Forall (fun c => 0 < c < 128 /\ ~ In c (special_in a) /\ c <> cEscape)%Z l -> utf8 l = l /\ writes_text (special_in a) l l).
  { induction l as [|d l IH]; intros G; [split; [reflexivity|constructor]|]. inversion G as [|? ? [B [N NE]] G']; subst. destruct (IH G') as [E1 E2].
    assert (Q : valid_rune d) by (split; [lia|]; unfold surrogate, in_range; rewrite (proj2 (Z.leb_gt 55296 d)) by lia; reflexivity).
    assert (Ed : encode d = [d]) by (destruct (encode_cases d Q) as [[_ E]|[G2 _]]; [exact E|lia]). split; [change (utf8 (d :: l)) with (encode d ++ utf8 l); rewrite Ed, E1; reflexivity|].
    replace (d :: l) with (encode d ++ l) at 2 by (rewrite Ed; reflexivity). constructor; [split; [exact Q|unfold RuneError; lia]|exact N|exact NE|exact E2]. }
  destruct (E _ F) as [E1 E2]. rewrite <- E1 at 1. constructor; [discriminate|exact E2].
Qed.
Example C79_case : exists ns m c, writes_seq false ns (lit "a*b*.go") /\ Forall text_or_star ns /\ texts ns = 3 /\ Globs (lit "a*b*.go") [] m /\ in_place fresh_store /\
  takes c (fresh_store, matching m (lit "axbc.go")) (fresh_store, Ret true) /\ c = 4.
Proof.
  assert (W : forall a l, Forall (fun c => c = 97 \/ c = 98 \/ c = 103 \/ c = 111 \/ c = 46)%Z l -> l <> [] -> writes a (NText l) l).
  { intros a [|c cs] F N; [contradiction|]. apply small_text. eapply Forall_impl; [|exact F]. intros d D. cbn beta in D. unfold special_in. destruct a; destruct D as [->|[->|[->|[->| ->]]]]; (split; [lia|split; [intros H; cbn in H; repeat (destruct H as [H|H]; [discriminate H|]); exact H|discriminate]]). }
  assert (Wr : writes_seq false [NText (lit "a"); NAny; NText (lit "b"); NAny; NText (lit ".go")] (lit "a*b*.go")).
  { apply (ws_cons false _ _ (lit "a") (lit "*b*.go")); [apply W; [constructor; [auto|constructor]|discriminate]|exact I|].
    apply (ws_cons false _ _ (lit "*") (lit "b*.go")); [constructor|exact I|].
    apply (ws_cons false _ _ (lit "b") (lit "*.go")); [apply W; [constructor; [auto|constructor]|discriminate]|exact I|].
    apply (ws_cons false _ _ (lit "*") (lit ".go")); [constructor|exact I|].
    apply (ws_cons false _ _ (lit ".go") []); [apply W; [constructor; [|constructor; [|constructor; [|constructor]]]; auto 10|discriminate]|exact I|constructor]. }
  exists [NText (lit "a"); NAny; NText (lit "b"); NAny; NText (lit ".go")], (match compile_f 20 (NPattern [NText (lit "a"); NAny; NText (lit "b"); NAny; NText (lit ".go")]) [] with Some m => m | None => MNothing end), 4. split; [exact Wr|split; [repeat (constructor; [exact Logic.I|]); constructor|split; [reflexivity|split; [|split; [intros k; reflexivity|split; [apply (ev_runs _ 4 (Some true)); [intros k; reflexivity|vm_compute; reflexivity]|reflexivity]]]]]].
  - exists (NPattern [NText (lit "a"); NAny; NText (lit "b"); NAny; NText (lit ".go")]), 20. split; [|vm_compute; reflexivity]. apply C44_parse_written. exists [NText (lit "a"); NAny; NText (lit "b"); NAny; NText (lit ".go")]. split; [reflexivity|exact Wr].
Qed.
Print Assumptions C79_texts_and_stars.
Print Assumptions C79_exponential.
Print Assumptions C79_polynomial_refuted.
