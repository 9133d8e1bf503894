(** * Gluing, building and optimising sequences of matchers (proofs for C46). *)
From Coq Require Import String.
From Coq Require Import ZArith Arith List Bool Lia.
From Verif Require Import Utf8 GoStr GlobLex GlobMatch GlobCompile GlobSpec GlobSem.
Import ListNotations.
Open Scope nat_scope.

Section Glue.
Context {md : Mode}.
(** An element of a sequence: a matcher and the strings it stands for. *)
Definition el := (Matcher * lang)%type.
Definition mtc (x : el) : Matcher := fst x.
Definition lg (x : el) : lang := snd x.
Definition total (x : el) : Prop := forall s, dom s -> right (sem (mtc x)) (lg x) s.
Record good (x : el) : Prop := {
  g_elem : elem (lg x) (sem (mtc x));
  g_opt : optimizeMatcher (mtc x) = mtc x;
  g_text : forall t, mtc x = MText t -> forall s, lg x s <-> s = t;
  g_kind : forall e k, glue_kind (mtc x) = Some (e, k) -> ascii e /\
    match k with GSuper => e = [] /\ (forall s, lg x s) | GAny => e <> [] /\ (forall s, lg x s <-> anyL e s) | GOne => ~ is_bytes /\ forall s, lg x s <-> oneL e s end }.
(** Two neighbours that can be compiled. *)
Record adj (x y : el) : Prop := {
  a_sep : forall e a b, glue_kind (mtc x) = Some (e, a) -> glue_kind (mtc y) = Some (e, b) -> length e <= 1;
  a_null : lg x [] -> lg y [] -> exists e a b, glue_kind (mtc x) = Some (e, a) /\ glue_kind (mtc y) = Some (e, b);
  a_pref : Len (mtc x) = (-1)%Z -> (Len (mtc y) = (-1)%Z \/ glue_kind (mtc y) <> None) -> pref (lg x) (sem (mtc x));
  a_plain : (forall p t, mtc x = MPrefix p -> mtc y <> MText t) /\ (forall p t, mtc x = MText t -> mtc y <> MSuffix p) }.
Fixpoint chain (l : list el) : Prop := match l with x :: (y :: _) as t => adj x y /\ chain t | _ => True end.
(** ** Languages over bytes *)
Lemma app_mid {A} (x y u w : list A) b : x ++ b :: y = u ++ w -> (exists u', u = x ++ b :: u' /\ y = u' ++ w) \/ (exists x', x = u ++ x' /\ w = x' ++ b :: y).
Proof.
  revert u. induction x as [|c x IH]; intros u E.
  - destruct u as [|d u]; cbn [app] in E; [right; exists []; auto|]. injection E as <- ->. left. exists u. auto.
  - destruct u as [|d u]; cbn [app] in E; [right; exists (c :: x); auto|]. injection E as <- E. destruct (IH u E) as [[u' [-> ->]]|[x' [-> ->]]]; [left; exists u'; auto|right; exists x'; auto].
Qed.
Lemma loose_cat A B : loose A -> loose B -> loose (fun s => exists u v, s = u ++ v /\ A u /\ B v).
Proof.
  intros HA HB Bt x b y bs Hb [u [v [E [Au Bv]]]] F. apply app_mid in E. destruct E as [[u' [-> ->]]|[x' [-> ->]]].
  - exists (x ++ bs ++ u'), v. rewrite <- !app_assoc. split; [reflexivity|]. split; [exact (HA Bt x b u' bs Hb Au F)|exact Bv].
  - exists u, (x' ++ bs ++ y). rewrite <- !app_assoc. split; [reflexivity|]. split; [exact Au|exact (HB Bt x' b y bs Hb Bv F)].
Qed.
Lemma loose_nil : loose (fun s => s = []).
Proof. intros _ x b y bs _ E. destruct x; discriminate. Qed.
Lemma loose_catL Ls : Forall loose Ls -> loose (catL Ls).
Proof. induction 1 as [|L Ls H _ IH]; [exact loose_nil|]. apply (loose_cat L (catL Ls) H IH). Qed.
Lemma loose_text t : (is_bytes -> ascii t) -> loose (fun s => s = t).
Proof. intros A. apply sharp_loose. intros B s ->. auto. Qed.
Lemma elem_loose L x : elem L x -> loose L.
Proof. intros [[k F]|F]; [apply sharp_loose, (fixed_sharp _ _ _ F)|apply F]. Qed.
Lemma goods_loose xs : Forall good xs -> loose (catL (map lg xs)).
Proof. intros G. apply loose_catL. induction G as [|x xs Gx G IH]; constructor; [apply (elem_loose _ _ (g_elem x Gx))|exact IH]. Qed.
Lemma chain_app a b : chain (a ++ b) <-> chain a /\ chain b /\ (forall a' x y b', a = a' ++ [x] -> b = y :: b' -> adj x y).
Proof.
  induction a as [|x a IH]; cbn [app].
  - split; [intros H; split; [exact I|]; split; [exact H|]; intros a' z y b' E; destruct a'; discriminate|tauto].
  - destruct a as [|x' a].
    + cbn [app] in *. destruct b as [|y b]; [cbn; split; [intros _; repeat split; intros; discriminate|auto]|]. cbn [chain]. split.
      * intros [A C]. split; [exact I|]. split; [exact C|]. intros a' z y' b' E1 E2. injection E2 as <- <-. destruct a' as [|? [|? ?]]; cbn in E1; try discriminate. injection E1 as <-. exact A.
      * intros [_ [C A]]. split; [|exact C]. apply (A [] x y b); reflexivity.
    + change (chain (x :: (x' :: a) ++ b)) with (adj x x' /\ chain ((x' :: a) ++ b)). rewrite IH. change (chain (x :: x' :: a)) with (adj x x' /\ chain (x' :: a)). split.
      * intros [A [B [C D]]]. split; [auto|]. split; [exact C|]. intros a' z y b' E1 E2. destruct a' as [|w a']; [discriminate|]. cbn in E1. injection E1 as <- E1. apply (D a' z y b' E1 E2).
      * intros [[A B] [C D]]. split; [exact A|]. split; [exact B|]. split; [exact C|]. intros a' z y b' E1 E2. apply (D (x :: a') z y b'); [rewrite E1; reflexivity|exact E2].
Qed.
Lemma chain_sub a b c : chain (a ++ b ++ c) -> chain b.
Proof. intros H. apply chain_app in H. destruct H as [_ [H _]]. apply chain_app in H. apply H. Qed.
Lemma chain_replace a f m l c g : chain (a ++ (f :: m ++ [l]) ++ c) -> (forall p, adj p f -> adj p g) -> (forall q, adj l q -> adj g q) -> chain (a ++ g :: c).
Proof.
  intros H P Q. apply chain_app in H. destruct H as [Ha [H D]]. apply chain_app in H. destruct H as [_ [Hc E]].
  apply chain_app. split; [exact Ha|]. split.
  - destruct c as [|q c]; [exact I|]. split; [|exact Hc]. apply Q. apply (E (f :: m) l q c); reflexivity.
  - intros a' x y b' E1 E2. injection E2 as <- <-. apply P. apply (D a' x f ((m ++ [l]) ++ c) E1). reflexivity.
Qed.

(** ** Gluing *)
Lemma zs_eqb_iff a b : zs_eqb a b = true <-> a = b.
Proof. unfold zs_eqb. destruct (list_eq_dec Z.eq_dec a b); split; congruence. Qed.
Definition more (k : GlueKind) : bool := negb (is_one k).
Lemma glue_lang e : forall xs ks, Forall good xs -> glue_kinds e (map mtc xs) = Some ks ->
  forall s, catL (map lg xs) s <-> everyL e (length (filter is_one ks)) (existsb more ks) s.
Proof.
  induction xs as [|x xs IH]; intros ks G H; cbn [map glue_kinds] in H.
  - injection H as <-. intros s. cbn [map catL filter existsb length]. unfold everyL. split.
    + intros ->. split; [constructor|reflexivity].
    + intros [_ E]. apply length_zero_iff_nil, E.
  - destruct (glue_kind (mtc x)) as [[e' k]|] eqn:GK; [|discriminate]. destruct (zs_eqb e' e) eqn:EE; [|discriminate]. apply zs_eqb_iff in EE. subst e'.
    destruct (glue_kinds e (map mtc xs)) as [ks'|]; [|discriminate]. injection H as <-. inversion G as [|? ? Gx Gxs]; subst. specialize (IH ks' Gxs eq_refl).
    destruct (g_kind x Gx e k GK) as [_ Kx]. intros s. cbn [map catL].
    destruct k; cbn [filter is_one existsb more negb orb].
    1,2: assert (Lx : forall u, lg x u <-> anyL e u) by (first [destruct Kx as [-> T]; intros u; split; [intros _; apply Forall_forall; intros ? _ []|auto]|apply Kx]);
      change (negb (is_one GSuper)) with true; split;
      [intros [u [v [-> [A B]]]]; apply Lx in A; apply IH in B; destruct B as [B C]; split; [apply anyL_app; auto|rewrite app_length; destruct (existsb more ks'); lia]
      |intros [A B]; set (n := length (filter is_one ks')) in *; exists (firstn (length s - n) s), (skipn (length s - n) s); split; [symmetry; apply firstn_skipn|];
       rewrite <- (firstn_skipn (length s - n) s) in A; apply anyL_app in A; destruct A as [A1 A2]; split; [apply Lx, A1|]; apply IH; split; [exact A2|]; rewrite skipn_length; destruct (existsb more ks'); lia].
    cbn [length]. split.
    + intros [u [v [-> [A B]]]]. apply Kx in A. destruct A as [c [-> Hc]]. apply IH in B. destruct B as [B C]. split; [constructor; assumption|]. cbn [app length]. destruct (existsb more ks'); lia.
    + intros [A B]. destruct s as [|c s]; [cbn in B; destruct (existsb more ks'); lia|]. inversion A; subst. exists [c], s. split; [reflexivity|]. split; [apply Kx; exists c; auto|]. apply IH. split; [assumption|]. cbn [length] in B. destruct (existsb more ks'); lia.
Qed.
Lemma glue_kinds_in e xs ks : glue_kinds e (map mtc xs) = Some ks -> forall x, In x xs -> exists k, glue_kind (mtc x) = Some (e, k) /\ In k ks.
Proof.
  revert ks. induction xs as [|y xs IH]; intros ks H x I; [destruct I|]. cbn [map glue_kinds] in H.
  destruct (glue_kind (mtc y)) as [[e' k]|] eqn:GK; [|discriminate]. destruct (zs_eqb e' e) eqn:EE; [|discriminate]. apply zs_eqb_iff in EE. subst e'.
  destruct (glue_kinds e (map mtc xs)) as [ks'|]; [|discriminate]. injection H as <-. destruct I as [<-|I]; [exists k; split; [exact GK|left; reflexivity]|].
  destruct (IH ks' eq_refl x I) as [k' [A B]]. exists k'. split; [exact A|right; exact B].
Qed.
Lemma glue_kinds_back e xs ks : glue_kinds e (map mtc xs) = Some ks -> forall k, In k ks -> exists x, In x xs /\ glue_kind (mtc x) = Some (e, k).
Proof.
  revert ks. induction xs as [|y xs IH]; intros ks H k I; cbn [map glue_kinds] in H; [injection H as <-; destruct I|].
  destruct (glue_kind (mtc y)) as [[e' k']|] eqn:GK; [|discriminate]. destruct (zs_eqb e' e) eqn:EE; [|discriminate]. apply zs_eqb_iff in EE. subst e'.
  destruct (glue_kinds e (map mtc xs)) as [ks'|]; [|discriminate]. injection H as <-. destruct I as [<-|I]; [exists y; split; [left; reflexivity|exact GK]|].
  destruct (IH ks' eq_refl k I) as [x [A B]]. exists x. split; [right; exact A|exact B].
Qed.
Lemma good_fixed x : good x -> Len (mtc x) <> (-1)%Z -> exists k, fixed k (lg x) (sem (mtc x)).
Proof. intros G N. destruct (g_elem x G) as [F|[F _]]; [exact F|]. contradiction. Qed.
Lemma good_free x : good x -> Len (mtc x) = (-1)%Z -> free (lg x) (sem (mtc x)).
Proof. intros G N. destruct (g_elem x G) as [[k [F _]]|F]; [|exact F]. unfold Len in N. lia. Qed.
Lemma fixed_null k L x : fixed k L x -> ~ L [].
Proof. intros [_ [K [F _]]] H. apply F in H. cbn in H. lia. Qed.
(** What replaces a glued run fits where the run was. *)
Definition fits_for (f l g : el) : Prop := good g /\ total g /\ (forall p, adj p f -> adj p g) /\ (forall q, adj l q -> adj g q).
Lemma row_glued xs g : 2 <= length xs -> Forall good xs -> glueMatchersAsRow (map mtc xs) = Some g -> forall f l,
  fits_for f l (g, catL (map lg xs)).
Proof.
  intros L G H f l. unfold glueMatchersAsRow in H. rewrite map_length in H. destruct (Nat.leb_spec (length xs) 1); [lia|]. destruct (existsb _ _) eqn:EX; [discriminate|]. injection H as <-.
  assert (R : exists n, row_of (map sem (map mtc xs)) (map lg xs) n /\ fold_right (fun m l => (Len m + l)%Z) 0%Z (map mtc xs) = Z.of_nat n /\ length xs <= n).
  { clear L H0. revert EX. induction G as [|x xs Gx G IH]; intros EX; [exists 0; split; [constructor|split; [reflexivity|cbn; lia]]|]. cbn [map existsb] in EX. apply orb_false_iff in EX. destruct EX as [E1 E2]. apply Z.eqb_neq in E1.
    destruct (IH E2) as [n [R [E N]]]. destruct (good_fixed x Gx E1) as [k Fk]. exists (k + n). split; [constructor; assumption|]. destruct Fk as [FL [FK _]]. split; [cbn [map fold_right]; rewrite E; unfold Len at 1; rewrite FL; lia|cbn [length]; lia]. }
  destruct R as [n [R [-> N]]]. pose proof (fixed_row (map mtc xs) (map lg xs) n R ltac:(lia)) as F.
  assert (NL : Len (MRow (map mtc xs) (Z.of_nat n)) <> (-1)%Z) by (unfold Len; cbn [sem sLen]; lia).
  split; [|split; [|split]].
  - split; cbn [mtc lg fst snd]; [left; exists n; exact F|reflexivity|discriminate|discriminate].
  - intros s As. destruct s as [|c s]; [|apply F; [exact As|discriminate]]. cbn [mtc lg fst snd sem]. exists false. split.
    + cbn [sMatch]. unfold row_match. change (range_str []) with (@nil (nat * Z)). cbn [length]. destruct (Z.eqb_spec (Z.of_nat 0) (Z.of_nat n)); [lia|reflexivity].
    + split; [discriminate|]. intros C. exfalso. apply (fixed_null _ _ _ F C).
  - intros p [A B C PL]. split; cbn [mtc lg fst snd]; [discriminate| | |split; discriminate].
    + intros _ D. exfalso. apply (fixed_null _ _ _ F D).
    + intros _ [D|D]; [contradiction|]. exfalso. apply D. reflexivity.
  - intros q [A B C PL]. split; cbn [mtc lg fst snd]; [discriminate| | |split; discriminate].
    + intros D _. exfalso. apply (fixed_null _ _ _ F D).
    + intros D. contradiction.
Qed.
Lemma glued_small xs e ks : 2 <= length xs -> chain xs -> glue_kinds e (map mtc xs) = Some ks -> length e <= 1.
Proof.
  intros L C H. destruct xs as [|x [|y xs]]; [cbn in L; lia|cbn in L; lia|]. destruct C as [[A _ _] _].
  destruct (glue_kinds_in _ _ _ H x) as [k [E _]]; [left; reflexivity|]. destruct (glue_kinds_in _ _ _ H y) as [k' [E' _]]; [right; left; reflexivity|]. exact (A e k k' E E').
Qed.
Lemma existsb_false_iff {A} (f : A -> bool) l : existsb f l = false <-> forall x, In x l -> f x = false.
Proof.
  split; [intros H x I; apply not_true_iff_false; intros T; apply not_true_iff_false in H; apply H, existsb_exists; eauto|]. intros H. apply not_true_iff_false. rewrite existsb_exists. intros [x [I T]]. rewrite (H x I) in T. discriminate.
Qed.
Lemma filter_none {A} (f : A -> bool) l : (forall x, In x l -> f x = false) -> filter f l = [].
Proof. induction l as [|x l IH]; intros H; [reflexivity|]. cbn [filter]. rewrite (H x (or_introl eq_refl)). apply IH. intros y I. apply H. right. exact I. Qed.
Lemma every_glued f m l g : let xs := f :: m ++ [l] in Forall good xs -> chain xs -> glueMatchersAsEvery (map mtc xs) = Some g ->
  fits_for f l (g, catL (map lg xs)) /\ (g = MSuper -> Forall (fun x => mtc x = MSuper) xs) /\ (forall t, g <> MText t).
Proof.
  intros xs G C H. assert (L2 : 2 <= length xs) by (unfold xs; cbn [length]; rewrite app_length; cbn; lia).
  assert (If : In f xs) by (left; reflexivity). assert (Il : In l xs) by (right; apply in_or_app; right; left; reflexivity).
  unfold glueMatchersAsEvery in H. rewrite map_length in H. destruct (Nat.leb_spec (length xs) 1); [lia|].
  assert (E0 : map mtc xs = mtc f :: map mtc (m ++ [l])) by reflexivity. rewrite E0 in H at 1. destruct (glue_kind (mtc f)) as [[e k0]|] eqn:GK0; [|discriminate].
  destruct (glue_kinds e (map mtc xs)) as [ks|] eqn:GK; [|discriminate].
  assert (Le := glued_small xs e ks L2 C GK). pose proof (glue_lang e xs ks G GK) as LANG.
  assert (Gf : good f) by (rewrite Forall_forall in G; apply G, If).
  assert (Ae : ascii e) by apply (g_kind f Gf e k0 GK0).
  assert (Gl : good l) by (rewrite Forall_forall in G; apply G, Il).
  destruct (glue_kinds_in e xs ks GK f If) as [k0' [GKf K0]]. rewrite GK0 in GKf. injection GKf as <-.
  destruct (glue_kinds_in e xs ks GK l Il) as [k1 [GK1 K1]].
  assert (KF : forall x e' a, good x -> glue_kind (mtc x) = Some (e', a) -> is_one a = false -> Len (mtc x) = (-1)%Z /\ lg x []).
  { intros x e' a Gx Ex Ha. destruct (g_kind x Gx e' a Ex) as [_ Kx]. destruct (mtc x); cbn in Ex; try discriminate; try (injection Ex as <- <-); try discriminate Ha.
    - split; [reflexivity|]. apply Kx. constructor.
    - split; [reflexivity|]. apply Kx.
    - destruct not; [injection Ex as <- <-; discriminate Ha|discriminate]. }
  (* a free wildcard with the same excluded characters *)
  assert (FITW : forall g0 k, glue_kind g0 = Some (e, k) -> is_one k = false -> (forall a, In a ks -> is_one a = false) -> optimizeMatcher g0 = g0 -> Len g0 = (-1)%Z ->
     (match k with GSuper => e = [] /\ (forall s, catL (map lg xs) s) | GAny => e <> [] /\ (forall s, catL (map lg xs) s <-> anyL e s) | GOne => False end) ->
     free (catL (map lg xs)) (sem g0) -> pref (catL (map lg xs)) (sem g0) -> fits_for f l (g0, catL (map lg xs))).
  { intros g0 k Gk Ok All Op Ln Lk Fr Pr. destruct (KF f e k0 Gf GK0 (All k0 K0)) as [Lf Nf]. destruct (KF l e k1 Gl GK1 (All k1 K1)) as [Ll Nl].
    assert (NG : catL (map lg xs) []) by (destruct k; [apply Lk|apply Lk; constructor|contradiction]).
    split; [split; cbn [mtc lg fst snd]|split; [|split]].
    - right. exact Fr.
    - exact Op.
    - intros t ->. discriminate Gk.
    - intros e' k' E. rewrite Gk in E. injection E as <- <-. split; [exact Ae|]. destruct k; [exact Lk|exact Lk|contradiction].
    - intros s As. apply Fr, As.
    - intros p [A B D PL]. split; cbn [mtc lg fst snd]; [| | |split; intros u t _ ->; discriminate Gk].
      + intros e' a b E1 E2. rewrite Gk in E2. injection E2 as <- <-. exact (A e a k0 E1 GK0).
      + intros Np _. destruct (B Np Nf) as [e' [a [b [E1 E2]]]]. rewrite GK0 in E2. injection E2 as <- <-. exists e, a, k. auto.
      + intros Lp _. apply D; [exact Lp|]. left. exact Lf.
    - intros q [A B D PL]. split; cbn [mtc lg fst snd]; [| | |split; intros u t ->; discriminate Gk].
      + intros e' a b E1 E2. rewrite Gk in E1. injection E1 as <- <-. exact (A e k1 b GK1 E2).
      + intros _ Nq. destruct (B Nl Nq) as [e' [a [b [E1 E2]]]]. rewrite GK1 in E1. injection E1 as <- <-. exists e, k, b. auto.
      + intros _ _. exact Pr. }
  (* something that is not empty and not glued again *)
  assert (FITM : forall g0, glue_kind g0 = None -> optimizeMatcher g0 = g0 -> match g0 with MPrefix _ | MSuffix _ | MText _ => False | _ => True end -> ~ catL (map lg xs) [] ->
     free (catL (map lg xs)) (sem g0) -> pref (catL (map lg xs)) (sem g0) -> fits_for f l (g0, catL (map lg xs))).
  { intros g0 Gk Op Pl Nn Fr Pr. split; [split; cbn [mtc lg fst snd]|split; [|split]].
    - right. exact Fr.
    - exact Op.
    - intros t ->. contradiction.
    - intros e' k' E. rewrite Gk in E. discriminate.
    - intros s As. apply Fr, As.
    - intros p [A B D PL]. split; cbn [mtc lg fst snd]; [rewrite Gk; discriminate|intros _ N; contradiction| |split; intros u t _ ->; contradiction]. intros Lp _. apply D; [exact Lp|]. right. rewrite GK0. discriminate.
    - intros q [A B D PL]. split; cbn [mtc lg fst snd]; [rewrite Gk; discriminate|intros N; contradiction| |split; intros u t ->; contradiction]. intros _ _. exact Pr. }
  set (n := length (filter is_one ks)) in *.
  assert (NBO : existsb is_one ks = true -> ~ is_bytes). { intros HO. apply existsb_exists in HO. destruct HO as [k [I0 O0]]. destruct k; try discriminate. destruct (glue_kinds_back _ _ _ GK _ I0) as [x [Xx Ex]]. rewrite Forall_forall in G. apply (g_kind x (G _ Xx) _ _ Ex). }
  assert (A0 : forall s, anyL [] s) by (intros s; apply Forall_forall; intros ? _ []).
  destruct (existsb is_super ks) eqn:HS; destruct (existsb is_any ks) eqn:HA; destruct (existsb is_one ks) eqn:HO; cbn [andb orb negb] in H.
  - (* super and any need different separators *) exfalso. apply existsb_exists in HS. destruct HS as [ka [Ia Ha]]. apply existsb_exists in HA. destruct HA as [kb [Ib Hb]]. destruct ka; try discriminate. destruct kb; try discriminate.
    destruct (glue_kinds_back _ _ _ GK _ Ia) as [xa [Xa Ea]]. destruct (glue_kinds_back _ _ _ GK _ Ib) as [xb [Xb Eb]]. rewrite Forall_forall in G. destruct (g_kind xa (G _ Xa) _ _ Ea) as [_ [Q1 _]]. destruct (g_kind xb (G _ Xb) _ _ Eb) as [_ [Q2 _]]. contradiction.
  - exfalso. apply existsb_exists in HS. destruct HS as [ka [Ia Ha]]. apply existsb_exists in HA. destruct HA as [kb [Ib Hb]]. destruct ka; try discriminate. destruct kb; try discriminate.
    destruct (glue_kinds_back _ _ _ GK _ Ia) as [xa [Xa Ea]]. destruct (glue_kinds_back _ _ _ GK _ Ib) as [xb [Xb Eb]]. rewrite Forall_forall in G. destruct (g_kind xa (G _ Xa) _ _ Ea) as [_ [Q1 _]]. destruct (g_kind xb (G _ Xb) _ _ Eb) as [_ [Q2 _]]. contradiction.
  - (* ** and ? *)
    pose proof (NBO eq_refl) as NB. assert (N1 : 1 <= n). { unfold n. apply existsb_exists in HO. destruct HO as [k [I0 O0]]. destruct (filter is_one ks) eqn:F; [|cbn; lia]. assert (In k []) by (rewrite <- F; apply filter_In; auto). contradiction. }
    assert (E : e = []). { apply existsb_exists in HS. destruct HS as [ka [Ia Ha]]. destruct ka; try discriminate. destruct (glue_kinds_back _ _ _ GK _ Ia) as [xa [Xa Ea]]. rewrite Forall_forall in G. apply (g_kind xa (G _ Xa) _ _ Ea). }
    assert (Mo : existsb more ks = true). { apply existsb_exists in HS. destruct HS as [ka [Ia Ha]]. destruct ka; try discriminate. apply existsb_exists. exists GSuper. auto. }
    subst e. rewrite (proj2 (Nat.ltb_lt 0 n)) in H by lia. cbn [length Nat.eqb andb] in H. injection H as <-. rewrite Mo in LANG.
    assert (LE : forall s, (fun s => n <= length s) s <-> catL (map lg xs) s) by (intros s; rewrite LANG; unfold everyL; split; [intros Q; split; [apply A0|exact Q]|intros [_ Q]; exact Q]).
    split; [|split; [discriminate|discriminate]]. apply FITM; [reflexivity|reflexivity|exact I|rewrite <- LE; cbn; lia|apply (free_ext _ _ _ LE), free_min; [exact NB|exact N1]|apply (pref_ext _ _ _ LE), pref_min; [exact NB|exact N1]].
  - (* only ** *) injection H as <-.
    assert (E : e = []). { apply existsb_exists in HS. destruct HS as [ka [Ia Ha]]. destruct ka; try discriminate. destruct (glue_kinds_back _ _ _ GK _ Ia) as [xa [Xa Ea]]. rewrite Forall_forall in G. apply (g_kind xa (G _ Xa) _ _ Ea). }
    assert (Mo : existsb more ks = true). { apply existsb_exists in HS. destruct HS as [ka [Ia Ha]]. destruct ka; try discriminate. apply existsb_exists. exists GSuper. auto. }
    pose proof (proj1 (existsb_false_iff _ _) HO) as HO'. pose proof (proj1 (existsb_false_iff _ _) HA) as HA'. assert (N0 : n = 0) by (unfold n; rewrite filter_none by exact HO'; reflexivity).
    assert (LE : forall s, (fun _ => True) s <-> catL (map lg xs) s) by (intros s; rewrite LANG, Mo, N0, E; unfold everyL; split; [intros _; split; [apply A0|lia]|auto]).
    split; [|split; [|discriminate]].
    + apply (FITW MSuper GSuper); [subst e; reflexivity|reflexivity|exact HO'|reflexivity|reflexivity|split; [exact E|intros s; apply LE; exact I]|apply (free_ext _ _ _ LE), free_super|apply (pref_ext _ _ _ LE), pref_super].
    + intros _. apply Forall_forall. intros x Ix. destruct (glue_kinds_in _ _ _ GK x Ix) as [k [Ek Ik]]. specialize (HO' k Ik). specialize (HA' k Ik). destruct k; try discriminate. destruct (mtc x); cbn in Ek; try discriminate Ek; [reflexivity|destruct not; discriminate Ek].
  - (* * and ? *)
    pose proof (NBO eq_refl) as NB. assert (N1 : 1 <= n). { unfold n. apply existsb_exists in HO. destruct HO as [k [I0 O0]]. destruct (filter is_one ks) eqn:F; [|cbn; lia]. assert (In k []) by (rewrite <- F; apply filter_In; auto). contradiction. }
    assert (Mo : existsb more ks = true). { apply existsb_exists in HA. destruct HA as [ka [Ia Ha]]. destruct ka; try discriminate. apply existsb_exists. exists GAny. auto. }
    rewrite (proj2 (Nat.ltb_lt 0 n)) in H by lia. cbn [andb] in H. rewrite Mo in LANG.
    assert (LE : forall s, everyL e n true s <-> catL (map lg xs) s) by (intros s; symmetry; apply LANG).
    assert (NE : (length e =? 0) = false). { destruct e; [|reflexivity]. apply existsb_exists in HA. destruct HA as [ka [Ia Ha]]. destruct ka; try discriminate. destruct (glue_kinds_back _ _ _ GK _ Ia) as [xa [Xa Ea]]. rewrite Forall_forall in G. destruct (g_kind xa (G _ Xa) _ _ Ea) as [_ [Q _]]. contradiction Q. reflexivity. }
    rewrite NE in H. injection H as <-. split; [|split; [discriminate|discriminate]].
    change (MEveryOf ([MMin n] ++ (if 0 <? length e then [MContains (utf8 e) true] else []))) with (everyM e n true).
    apply FITM; [reflexivity|reflexivity|exact I|rewrite <- LE; intros [_ Q]; cbn in Q; lia|apply (free_ext _ _ _ LE), free_every; assumption|apply (pref_ext _ _ _ LE), pref_every; assumption].
  - (* only * *) injection H as <-.
    pose proof (proj1 (existsb_false_iff _ _) HO) as HO'. assert (N0 : n = 0) by (unfold n; rewrite filter_none by exact HO'; reflexivity).
    assert (Mo : existsb more ks = true). { apply existsb_exists in HA. destruct HA as [ka [Ia Ha]]. destruct ka; try discriminate. apply existsb_exists. exists GAny. auto. }
    assert (NE : e <> []). { apply existsb_exists in HA. destruct HA as [ka [Ia Ha]]. destruct ka; try discriminate. destruct (glue_kinds_back _ _ _ GK _ Ia) as [xa [Xa Ea]]. rewrite Forall_forall in G. apply (g_kind xa (G _ Xa) _ _ Ea). }
    assert (LE : forall s, anyL e s <-> catL (map lg xs) s) by (intros s; rewrite LANG, Mo, N0; unfold everyL; split; [intros Q; split; [exact Q|lia]|intros [Q _]; exact Q]).
    split; [|split; [discriminate|discriminate]].
    apply (FITW (MAny e) GAny); [reflexivity|reflexivity|exact HO'|destruct e; [contradiction NE; reflexivity|reflexivity]|reflexivity|split; [exact NE|intros s; symmetry; apply LE]|apply (free_ext _ _ _ LE), free_any, Ae|apply (pref_ext _ _ _ LE), pref_any; assumption].
  - (* only ? *)
    pose proof (NBO eq_refl) as NB. assert (N1 : 1 <= n). { unfold n. apply existsb_exists in HO. destruct HO as [k [I0 O0]]. destruct (filter is_one ks) eqn:F; [|cbn; lia]. assert (In k []) by (rewrite <- F; apply filter_In; auto). contradiction. }
    assert (Mo : existsb more ks = false). { apply existsb_false_iff. intros k Ik. pose proof (proj1 (existsb_false_iff _ _) HS k Ik). pose proof (proj1 (existsb_false_iff _ _) HA k Ik). destruct k; try discriminate. reflexivity. }
    rewrite (proj2 (Nat.ltb_lt 0 n)) in H by lia. cbn [andb] in H. rewrite Mo in LANG.
    assert (LE : forall s, everyL e n false s <-> catL (map lg xs) s) by (intros s; symmetry; apply LANG).
    injection H as <-. split; [|split; [discriminate|discriminate]].
    change (MEveryOf (MMin n :: [MMax n] ++ (if 0 <? length e then [MContains (utf8 e) true] else []))) with (everyM e n false).
    apply FITM; [reflexivity|reflexivity|exact I|rewrite <- LE; intros [_ Q]; cbn in Q; lia|apply (free_ext _ _ _ LE), free_every; assumption|apply (pref_ext _ _ _ LE), pref_every; assumption].
  - exfalso. pose proof (proj1 (existsb_false_iff _ _) HS k0 K0). pose proof (proj1 (existsb_false_iff _ _) HA k0 K0). pose proof (proj1 (existsb_false_iff _ _) HO k0 K0). destruct k0; discriminate.
Qed.
Lemma glued f m l g : let xs := f :: m ++ [l] in Forall good xs -> chain xs -> glueMatchers (map mtc xs) = Some g ->
  fits_for f l (g, catL (map lg xs)) /\ (g = MSuper -> Forall (fun x => mtc x = MSuper) xs) /\ (forall t, g <> MText t).
Proof.
  intros xs G C H. unfold glueMatchers in H. destruct (glueMatchersAsEvery (map mtc xs)) as [g'|] eqn:E.
  - injection H as ->. exact (every_glued f m l g G C E).
  - split.
    + apply row_glued; [unfold xs; cbn [length]; rewrite app_length; cbn; lia|exact G|exact H].
    + unfold glueMatchersAsRow in H. destruct (_ <=? _); [discriminate|]. destruct (existsb _ _); [discriminate|]. injection H as <-. split; discriminate.
Qed.
Lemma glue_two ms g : glueMatchers ms = Some g -> 2 <= length ms.
Proof.
  unfold glueMatchers, glueMatchersAsEvery, glueMatchersAsRow. destruct (Nat.leb_spec (length ms) 1); [discriminate|]. lia.
Qed.
(** ** Minimising *)
Lemma in_slices n l r : In (l, r) (slices n) <-> l < r /\ r <= n.
Proof.
  unfold slices. rewrite in_flat_map. split.
  - intros [a [Ia H]]. apply in_map_iff in H. destruct H as [k [E K]]. apply in_seq in Ia. apply in_seq in K. injection E as -> <-. lia.
  - intros [A B]. exists l. split; [apply in_seq; lia|]. apply in_map_iff. exists (n - r). split; [f_equal; lia|]. apply in_seq. lia.
Qed.
Lemma consider_spec ms : forall ls b, match fold_left (consider ms) ls b with
  | None => b = None /\ forall l r, In (l, r) ls -> glueMatchers (firstn (r - l) (skipn l ms)) = None
  | Some (d, l, r) => b = Some (d, l, r) \/ (In (l, r) ls /\ glueMatchers (firstn (r - l) (skipn l ms)) = Some d) end.
Proof.
  induction ls as [|[l0 r0] ls IH]; intros b; cbn [fold_left].
  - destruct b as [[[d l] r]|]; [left; reflexivity|]. split; [reflexivity|intros l r []].
  - specialize (IH (consider ms b (l0, r0))). destruct (fold_left _ ls _) as [[[d l] r]|].
    + destruct IH as [IH|[I0 IH]]; [|right; split; [right; exact I0|exact IH]]. unfold consider in IH. destruct (glueMatchers (firstn (r0 - l0) (skipn l0 ms))) as [g|] eqn:E; [|left; exact IH].
      destruct b as [[[d0 dl] dr]|].
      * destruct (_ || _); [|left; exact IH]. injection IH as <- <- <-. right. split; [left; reflexivity|exact E].
      * injection IH as <- <- <-. right. split; [left; reflexivity|exact E].
    + destruct IH as [IH1 IH2]. unfold consider in IH1. destruct (glueMatchers (firstn (r0 - l0) (skipn l0 ms))) as [g|] eqn:E.
      * destruct b as [[[d0 dl] dr]|]; [destruct (_ || _); discriminate|discriminate].
      * split; [exact IH1|]. intros l r [H|H]; [injection H as <- <-; exact E|apply IH2, H].
Qed.
Definition noglue (ms : list Matcher) : Prop := forall a b c, ms = a ++ b ++ c -> glueMatchers b = None.
Lemma noglue_sub a b c : noglue (a ++ b ++ c) -> noglue b.
Proof. intros H x y z ->. apply (H (a ++ x) y (z ++ c)). rewrite !app_assoc. reflexivity. Qed.
(** A text, stars, a text: what is later compiled to a prefix and a suffix that may overlap. *)
Definition text_stars_text (ms : list Matcher) : Prop := exists a mid b, ms = MText a :: mid ++ [MText b] /\ mid <> [] /\ Forall (fun m => m = MSuper) mid.
Lemma first_last {A} (l : list A) : 2 <= length l -> exists f m x, l = f :: m ++ [x].
Proof.
  intros H. destruct l as [|f l]; [cbn in H; lia|]. destruct l as [|y l]; [cbn in H; lia|]. exists f. destruct (exists_last (l := y :: l)) as [m [x E]]; [discriminate|]. exists m, x. rewrite E. reflexivity.
Qed.
Lemma super_split a g b x mid y : a ++ g :: b = MText x :: mid ++ [MText y] -> (forall t, g <> MText t) -> Forall (fun m => m = MSuper) mid ->
  g = MSuper /\ exists a' b', a = MText x :: a' /\ b = b' ++ [MText y] /\ Forall (fun m => m = MSuper) a' /\ Forall (fun m => m = MSuper) b'.
Proof.
  intros E N F. destruct a as [|z a]; [cbn in E; injection E as -> _; contradiction (N x); reflexivity|]. cbn in E. injection E as -> E.
  destruct b as [|w b _] using rev_ind; [apply app_inj_tail in E; destruct E as [_ ->]; contradiction (N y); reflexivity|].
  rewrite app_comm_cons, app_assoc in E. apply app_inj_tail in E. destruct E as [<- ->]. apply Forall_app in F. destruct F as [F1 F2]. inversion F2; subst. split; [reflexivity|]. exists a, b. auto.
Qed.
Lemma minimize_spec fuel : forall xs, Forall good xs -> chain xs -> length xs <= fuel ->
  exists ys, map mtc ys = minimize_f fuel (map mtc xs) /\ Forall good ys /\ chain ys /\ noglue (map mtc ys) /\ (forall s, catL (map lg ys) s <-> catL (map lg xs) s)
    /\ (ys = xs \/ (length ys < length xs /\ forall y, ys = [y] -> total y)) /\ (text_stars_text (map mtc ys) -> text_stars_text (map mtc xs)) /\ (xs <> [] -> ys <> []).
Proof.
  induction fuel as [|f IH]; intros xs G C L; cbn [minimize_f].
  { assert (xs = []) as -> by (destruct xs; [reflexivity|cbn in L; lia]). exists []. repeat split; auto.
    intros a b c E. destruct a; [|discriminate]. destruct b; [reflexivity|discriminate]. }
  pose proof (consider_spec (map mtc xs) (slices (length (map mtc xs))) None) as CS. destruct (fold_left (consider (map mtc xs)) (slices (length (map mtc xs))) None) as [[[d l] r]|].
  - destruct CS as [CS|[In0 GL]]; [discriminate|]. apply in_slices in In0. rewrite map_length in In0. destruct In0 as [Hl Hr].
    set (a := firstn l xs). set (mid := firstn (r - l) (skipn l xs)). set (c := skipn r xs).
    assert (EX : xs = a ++ mid ++ c). { unfold a, mid, c. rewrite <- (firstn_skipn l xs) at 1. f_equal. rewrite <- (firstn_skipn (r - l) (skipn l xs)) at 1. f_equal. rewrite skipn_add. f_equal. lia. }
    rewrite skipn_map', firstn_map in GL. fold mid in GL. pose proof (glue_two _ _ GL) as L2. rewrite map_length in L2.
    assert (LA : length a = l) by (unfold a; rewrite firstn_length; lia). assert (LC : length c = length xs - r) by (unfold c; apply skipn_length). assert (LM : length mid = r - l) by (unfold mid; rewrite firstn_length, skipn_length; lia).
    rewrite firstn_map, skipn_map'. fold a c. clearbody a mid c. subst xs. destruct (first_last mid L2) as [fx [m [lx ->]]].
    apply Forall_app in G. destruct G as [Ga G]. apply Forall_app in G. destruct G as [Gm Gc]. pose proof (chain_sub _ _ _ C) as Cm.
    destruct (glued fx m lx d Gm Cm GL) as [[Gg [Tg [Pg Qg]]] [Sg Ng]]. set (g := (d, catL (map lg (fx :: m ++ [lx])))) in *.
    pose proof (chain_replace a fx m lx c g C Pg Qg) as C'. assert (G' : Forall good (a ++ g :: c)) by (apply Forall_app; split; [exact Ga|constructor; assumption]).
    assert (E1 : map mtc a ++ d :: map mtc c = map mtc (a ++ g :: c)) by (rewrite map_app; reflexivity). rewrite E1.
    assert (L3 : length (map mtc (a ++ g :: c)) < length (map mtc (a ++ (fx :: m ++ [lx]) ++ c))) by (rewrite !map_length, !app_length in *; cbn [length] in *; lia).
    destruct (Nat.eqb_spec (length (map mtc (a ++ g :: c))) (length (map mtc (a ++ (fx :: m ++ [lx]) ++ c)))); [lia|]. rewrite !map_length in L3.
    destruct (IH (a ++ g :: c) G' C' ltac:(lia)) as [ys [Y1 [Y2 [Y3 [Y4 [Y5 [Y6 [Y7 Y8]]]]]]]].
    exists ys. split; [exact Y1|]. split; [exact Y2|]. split; [exact Y3|]. split; [exact Y4|]. split; [|split; [|split]].
    + intros s. rewrite Y5. rewrite (map_app lg a), (map_app lg a), (map_app lg (fx :: m ++ [lx])), (catL_app (map lg a)), (catL_app (map lg a)).
      assert (S1 : forall t, catL (map lg (g :: c)) t <-> catL (map lg (fx :: m ++ [lx]) ++ map lg c) t).
      { intros t. rewrite catL_app. change (map lg (g :: c)) with (catL (map lg (fx :: m ++ [lx])) :: map lg c). reflexivity. }
      split; intros [u [v [E [A B]]]]; exists u, v; (split; [exact E|]; split; [exact A|]); apply S1, B.
    + right. destruct Y6 as [->|[Y6 Y6']]; [|split; [lia|exact Y6']]. split; [exact L3|]. intros y E. destruct a as [|a0 a]; [|destruct a; discriminate]. cbn in E. injection E as <- E. exact Tg.
    + intros T. apply Y7 in T. destruct T as [x [mdl [y [E [Ne F]]]]]. rewrite <- E1 in E. destruct (super_split _ _ _ _ _ _ E Ng F) as [Ed [a' [b' [Ea [Eb [Fa Fb]]]]]]. specialize (Sg Ed).
      exists x, (a' ++ map mtc (fx :: m ++ [lx]) ++ b'), y. rewrite (map_app mtc a), (map_app mtc (fx :: m ++ [lx])), Ea, Eb. split; [cbn [app]; rewrite <- !app_assoc; reflexivity|]. split; [destruct a'; discriminate|].
      apply Forall_app. split; [exact Fa|]. apply Forall_app. split; [|exact Fb]. rewrite Forall_map. exact Sg.
    + intros _. apply Y8. destruct a; discriminate.
  - exists xs. split; [reflexivity|]. split; [exact G|]. split; [exact C|]. split; [|split; [tauto|]; split; [left; reflexivity|]; split; auto].
    destruct CS as [_ CS]. intros a b c E. destruct (glueMatchers b) as [g|] eqn:GB; [|reflexivity]. exfalso. pose proof (glue_two _ _ GB) as L2.
    specialize (CS (length a) (length a + length b)). assert (HH : glueMatchers (firstn (length a + length b - length a) (skipn (length a) (map mtc xs))) = None).
    { apply CS. apply in_slices. rewrite E, !app_length. lia. }
    rewrite E in HH. rewrite skipn_app, skipn_all, Nat.sub_diag in HH. cbn [skipn app] in HH. replace (length a + length b - length a) with (length b) in HH by lia. rewrite firstn_app, firstn_all, Nat.sub_diag, firstn_O, app_nil_r in HH. congruence.
Qed.

(** ** Building and optimising the tree *)
Definition bad (ms : list Matcher) : Prop := exists a b, ms = [MText a; MSuper; MText b].
Record res (xs : list el) (m : Matcher) : Prop := {
  r_fix : optimizeMatcher (optimizeMatcher m) = optimizeMatcher m;
  r_one : forall x, xs = [x] -> m = mtc x;
  r_many : 2 <= length xs -> free (catL (map lg xs)) (sem m);
  r_opt : 2 <= length xs -> ~ bad (map mtc xs) -> free (catL (map lg xs)) (sem (optimizeMatcher m));
  r_super : optimizeMatcher m = MSuper -> map mtc xs = [MSuper];
  r_any : forall e, optimizeMatcher m = MAny e -> map mtc xs = [MAny e];
  r_prefix : forall p, optimizeMatcher m = MPrefix p -> map mtc xs = [MText p; MSuper] \/ map mtc xs = [MPrefix p];
  r_suffix : forall p, optimizeMatcher m = MSuffix p -> map mtc xs = [MSuper; MText p] \/ map mtc xs = [MSuffix p];
  r_bad : forall a b, map mtc xs = [MText a; MSuper; MText b] -> optimizeMatcher m = MPrefixSuffix a b;
  r_prefix_back : forall p, map mtc xs = [MText p; MSuper] -> optimizeMatcher m = MPrefix p;
  r_suffix_back : forall p, map mtc xs = [MSuper; MText p] -> optimizeMatcher m = MSuffix p }.
Lemma elem_ext L L' x : (forall s, L s <-> L' s) -> elem L x -> elem L' x.
Proof. intros E [[k F]|F]; [left; exists k; apply (fixed_ext k L L' x E F)|right; apply (free_ext L L' x E F)]. Qed.
Lemma res_single x : good x -> res [x] (mtc x).
Proof.
  intros G. pose proof (g_opt x G) as O. split; rewrite ?O; auto; cbn [length map]; try lia; try (intros; congruence).
  all: intros p E; right; congruence.
Qed.
(** One side of a BTree: absent, or compiled and without a known length. *)
Definition part (a : list el) (o : option Matcher) : Prop :=
  (a = [] /\ o = None) \/ (a <> [] /\ exists m, o = Some m /\ res a m /\ Len m = (-1)%Z /\ ~ bad (map mtc a)).
Definition osem (o : option Matcher) : option Sem := match o with Some m => Some (sem m) | None => None end.
Definition oopt (o : option Matcher) : option Matcher := match o with Some m => Some (optimizeMatcher m) | None => None end.
Definition olen (o : option Matcher) : Z := match o with Some m => Len m | None => 0%Z end.
Lemma part_sides a o : Forall good a -> part a o -> side (osem o) (catL (map lg a)) (olen o) /\ side (osem (oopt o)) (catL (map lg a)) (olen o) /\ oopt (oopt o) = oopt o.
Proof.
  intros G [[-> ->]|[N [m [-> [R [Ln NB]]]]]]; cbn [osem oopt olen side].
  - split; [split; [reflexivity|intros s; reflexivity]|]. split; [split; [reflexivity|intros s; reflexivity]|reflexivity].
  - destruct (Nat.le_gt_cases 2 (length a)) as [L|L].
    + pose proof (r_many _ _ R L) as F1. pose proof (r_opt _ _ R L NB) as F2. split; [split; [reflexivity|right; exact F1]|]. split; [split; [destruct F2 as [-> _]; exact Ln|right; exact F2]|]. rewrite (r_fix _ _ R). reflexivity.
    + destruct a as [|x [|? ?]]; [contradiction|clear L|cbn in L; lia]. rewrite (r_one _ _ R x eq_refl) in *. inversion G as [|? ? Gx _]; subst. rewrite (g_opt x Gx).
      assert (E : elem (catL (map lg [x])) (sem (mtc x))) by (apply (elem_ext (lg x)); [intros s; symmetry; apply catL_one|apply Gx]).
      split; [split; [reflexivity|exact E]|]. split; [split; [reflexivity|exact E]|]. rewrite (g_opt x Gx). reflexivity.
Qed.
Lemma catL_btree a x c s : catL (map lg (a ++ x :: c)) s <-> catL [catL (map lg a); lg x; catL (map lg c)] s.
Proof.
  rewrite map_app, catL_app. cbn [map]. split.
  - intros [u [v [-> [A [w [y [-> [B D]]]]]]]]. exists u, (w ++ y). split; [reflexivity|]. split; [exact A|]. exists w, y. split; [reflexivity|]. split; [exact B|]. apply (proj2 (catL_one _ _)). exact D.
  - intros [u [v [-> [A [w [y [-> [B D]]]]]]]]. apply (proj1 (catL_one _ _)) in D. exists u, (w ++ y). split; [reflexivity|]. split; [exact A|]. exists w, y. auto.
Qed.
Lemma sem_btree v l r ll rl len : sem (MBTree v l r ll rl len) = {| sLen := len; sMatch := btree_match (sem v) (osem l) (osem r) ll rl len; sIndex := fun _ => Some None |}.
Proof. destruct l, r; reflexivity. Qed.
Lemma part_side_len a o : part a o -> olen o = if length a =? 0 then 0%Z else (-1)%Z.
Proof. intros [[-> ->]|[N [m [-> [_ [E _]]]]]]; [reflexivity|]. destruct a; [contradiction|]. exact E. Qed.
Lemma firstn_len_app (u w : str) : firstn (length (u ++ w) - length w) (u ++ w) = u.
Proof. rewrite app_length. replace (length u + length w - length w) with (length u) by lia. rewrite firstn_app, firstn_all, Nat.sub_diag, firstn_O, app_nil_r. reflexivity. Qed.
Lemma hassuffix_iff s t : HasSuffix s t = true <-> exists u, s = u ++ t.
Proof.
  unfold HasSuffix. rewrite andb_true_iff, Nat.leb_le, eqs_iff. split.
  - intros [L E]. exists (firstn (length s - length t) s). rewrite <- E at 2. symmetry. apply firstn_skipn.
  - intros [u ->]. rewrite app_length. split; [lia|]. replace (length u + length t - length t) with (length u) by lia. rewrite skipn_app, skipn_all, Nat.sub_diag. reflexivity.
Qed.
(** The simplified matchers made from a text and its neighbours. *)
Lemma text_ascii x t : good x -> mtc x = MText t -> is_bytes -> ascii t.
Proof.
  intros G E B. pose proof (g_text x G t E) as T. destruct (g_elem x G) as [[k F]|[F _]].
  - apply (fixed_sharp _ _ _ F B). apply T. reflexivity.
  - exfalso. rewrite E in F. cbn [sem sLen] in F. lia.
Qed.
Lemma free_contains t : (is_bytes -> ascii t) -> free (fun s => exists u v, s = u ++ t ++ v) (sem (MContains t false)).
Proof.
  intros At. split; [reflexivity|]. split; [|apply (loose_ext (catL [(fun _ => True); (fun s => s = t); (fun _ => True)])); [|apply loose_catL; repeat constructor; try exact loose_super; exact (loose_text t At)]].
  2: { intros s. cbn [catL]. split; [intros [u [v [-> [_ [w [x [-> [-> [y [z [-> [_ ->]]]]]]]]]]]]; exists u, y; rewrite app_nil_r; reflexivity|]. intros [u [v ->]]. exists u, (t ++ v). repeat split. exists t, v. repeat split. exists v, []. rewrite app_nil_r. auto. }
  intros s As. eexists. split; [reflexivity|]. pose proof (index_of_spec s t) as H. destruct (index_of s t) as [i|]; cbn.
  - split; [intros _|reflexivity]. destruct H as [_ [H _]]. exists (firstn i s), (skipn (i + length t) s). rewrite <- H at 1. apply split3.
  - split; [discriminate|]. intros [u [v ->]]. exfalso. apply (H (length u)); [rewrite app_length; lia|]. apply sub_app3.
Qed.
Lemma free_suffix t : (is_bytes -> ascii t) -> free (fun s => exists u, s = u ++ t) (sem (MSuffix t)).
Proof.
  intros At. split; [reflexivity|]. split; [intros s As; eexists; split; [reflexivity|]; apply hassuffix_iff|].
  apply (loose_ext (fun s => exists u v, s = u ++ v /\ True /\ v = t)); [|apply loose_cat; [exact loose_super|exact (loose_text t At)]]. intros s. split; [intros [u [v [-> [_ ->]]]]; exists u; reflexivity|intros [u ->]; exists u, t; auto].
Qed.
Lemma free_prefix t : (is_bytes -> ascii t) -> free (fun s => exists u, s = t ++ u) (sem (MPrefix t)).
Proof.
  intros At. split; [reflexivity|]. split; [intros s As; eexists; split; [reflexivity|]; apply HasPrefix_iff|].
  apply (loose_ext (fun s => exists u v, s = u ++ v /\ u = t /\ True)); [|apply loose_cat; [exact (loose_text t At)|exact loose_super]]. intros s. split; [intros [u [v [-> [-> _]]]]; exists v; reflexivity|intros [v ->]; exists t, v; auto].
Qed.
Lemma free_suffix_any t e : (is_bytes -> ascii t) -> ascii e -> free (fun s => exists u, s = u ++ t /\ anyL e u) (sem (MSuffixAny t e)).
Proof.
  intros At Ae. split; [reflexivity|]. split; [|apply (loose_ext (fun s => exists u v, s = u ++ v /\ anyL e u /\ v = t)); [|apply loose_cat; [exact (loose_any e Ae)|exact (loose_text t At)]]].
  2: { intros s. split; [intros [u [v [-> [H ->]]]]; exists u; auto|intros [u [-> H]]; exists u, t; auto]. }
  intros s As. eexists. split; [reflexivity|]. rewrite andb_true_iff, hassuffix_iff. split.
  - intros [[u ->] H]. exists u. split; [reflexivity|]. rewrite firstn_len_app in H. apply (any_none u e Ae). destruct (IndexAnyRunes u e); [discriminate|reflexivity].
  - intros [u [-> H]]. split; [exists u; reflexivity|]. rewrite firstn_len_app. apply (any_none u e Ae) in H. rewrite H. reflexivity.
Qed.
Lemma free_prefix_any t e : (is_bytes -> ascii t) -> ascii e -> free (fun s => exists u, s = t ++ u /\ anyL e u) (sem (MPrefixAny t e)).
Proof.
  intros At Ae. split; [reflexivity|]. split; [|apply (loose_ext (fun s => exists u v, s = u ++ v /\ u = t /\ anyL e v)); [|apply loose_cat; [exact (loose_text t At)|exact (loose_any e Ae)]]].
  2: { intros s. split; [intros [u [v [-> [-> H]]]]; exists v; auto|intros [u [-> H]]; exists t, u; auto]. }
  intros s As. eexists. split; [reflexivity|]. rewrite andb_true_iff, HasPrefix_iff.
  assert (K : forall u, skipn (length t) (t ++ u) = u) by (intros u; rewrite skipn_app, skipn_all, Nat.sub_diag; reflexivity). split.
  - intros [[u ->] H]. exists u. split; [reflexivity|]. rewrite K in H. apply (any_none u e Ae). destruct (IndexAnyRunes u e); [discriminate|reflexivity].
  - intros [u [-> H]]. split; [exists u; reflexivity|]. rewrite K. apply (any_none u e Ae) in H. rewrite H. reflexivity.
Qed.
Definition text_tree (t : str) (l r : option Matcher) (ll rl len : Z) : Matcher :=
  match l, r with
  | None, None => MText t
  | Some MSuper, Some MSuper => MContains t false
  | Some MSuper, None => MSuffix t
  | None, Some MSuper => MPrefix t
  | None, Some (MSuffix s) => MPrefixSuffix t s
  | Some (MPrefix p), None => MPrefixSuffix p t
  | Some (MAny seps), None => MSuffixAny t seps
  | None, Some (MAny seps) => MPrefixAny t seps
  | _, _ => MBTree (MText t) l r ll rl len
  end.
Lemma optimize_text t l r ll rl len : optimizeMatcher (MBTree (MText t) l r ll rl len) = text_tree t (oopt l) (oopt r) ll rl len.
Proof. destruct l, r; reflexivity. Qed.
Lemma opt_text_cases t l r ll rl len : let o := optimizeMatcher (MBTree (MText t) l r ll rl len) in let l := oopt l in let r := oopt r in
  (l = Some MSuper /\ r = Some MSuper /\ o = MContains t false) \/ (l = Some MSuper /\ r = None /\ o = MSuffix t) \/ (l = None /\ r = Some MSuper /\ o = MPrefix t)
  \/ (exists s, l = None /\ r = Some (MSuffix s) /\ o = MPrefixSuffix t s) \/ (exists p, l = Some (MPrefix p) /\ r = None /\ o = MPrefixSuffix p t)
  \/ (exists e, l = Some (MAny e) /\ r = None /\ o = MSuffixAny t e) \/ (exists e, l = None /\ r = Some (MAny e) /\ o = MPrefixAny t e)
  \/ (l = None /\ r = None /\ o = MText t) \/ o = MBTree (MText t) l r ll rl len.
Proof.
  cbv zeta. rewrite optimize_text. generalize (oopt l) (oopt r). clear l r. intros l r. destruct l as [l|]; [destruct l; destruct r as [r|]; try (destruct r)|destruct r as [r|]; [destruct r|]]; cbn [text_tree]; eauto 12.
Qed.
Lemma btree_res a x c lo ro : Forall good a -> good x -> Forall good c -> Len (mtc x) <> (-1)%Z -> part a lo -> part c ro -> a <> [] \/ c <> [] -> chain (a ++ x :: c) ->
  res (a ++ x :: c) (NewBTree (mtc x) lo ro).
Proof.
  intros Ga Gx Gc Lx Pa Pc NE CH. destruct (good_fixed x Gx Lx) as [k Fx]. destruct (part_sides a lo Ga Pa) as [Sa [Sa' Ia]]. destruct (part_sides c ro Gc Pc) as [Sc [Sc' Ic]].
  pose proof (part_side_len a lo Pa) as La. pose proof (part_side_len c ro Pc) as Lc.
  assert (EN : NewBTree (mtc x) lo ro = MBTree (mtc x) lo ro (olen lo) (olen ro) (-1)).
  { unfold NewBTree. fold (olen lo). fold (olen ro). rewrite La, Lc. destruct a as [|a0 a]; [|cbn [length Nat.eqb]; rewrite andb_false_r; reflexivity].
    destruct c as [|c0 c]; [destruct NE; contradiction|]. cbn [length Nat.eqb]. rewrite !andb_false_r. reflexivity. }
  rewrite EN. clear EN.
  assert (L2 : 2 <= length (a ++ x :: c)) by (rewrite app_length; cbn [length]; destruct a; [|cbn; lia]; destruct c; [destruct NE; contradiction|cbn; lia]).
  assert (FB : forall l r, side (osem l) (catL (map lg a)) (olen lo) -> side (osem r) (catL (map lg c)) (olen ro) -> free (catL (map lg (a ++ x :: c))) (sem (MBTree (mtc x) l r (olen lo) (olen ro) (-1)))).
  { intros l r Hl Hr. rewrite sem_btree. split; [reflexivity|]. split; [|apply goods_loose, Forall_app; split; [exact Ga|constructor; assumption]]. intros s As. destruct (btree_fixed _ _ _ _ _ _ _ _ _ (-1) s Fx Hl Hr As (or_introl eq_refl)) as [b [M Hb]].
    exists b. split; [exact M|]. rewrite Hb. symmetry. apply catL_btree. }
  pose proof (FB lo ro Sa Sc) as F0. pose proof (FB (oopt lo) (oopt ro) Sa' Sc') as F1.
  set (o0 := MBTree (mtc x) (oopt lo) (oopt ro) (olen lo) (olen ro) (-1)) in *.
  assert (NOTEXT : (forall t, mtc x <> MText t) -> optimizeMatcher (MBTree (mtc x) lo ro (olen lo) (olen ro) (-1)) = o0 /\ optimizeMatcher o0 = o0).
  { intros N. unfold o0. clear - N Ia Ic. split.
    - destruct lo, ro, (mtc x); try reflexivity; contradiction (N s); reflexivity.
    - rewrite <- Ia at 2. rewrite <- Ic at 2. destruct (oopt lo), (oopt ro), (mtc x); try reflexivity; contradiction (N s); reflexivity. }
  assert (D : (exists t, mtc x = MText t) \/ forall t, mtc x <> MText t) by (destruct (mtc x); try (right; discriminate); left; eauto).
  destruct D as [[t Ex]|D].
  2: { destruct (NOTEXT D) as [E1 E2]. split; rewrite ?E1; auto; try (unfold o0; discriminate).
    - intros y E. exfalso. rewrite E in L2. cbn in L2. lia.
    - intros p q E. exfalso. assert (I0 : In (mtc x) [MText p; MSuper; MText q]) by (rewrite <- E, map_app; apply in_or_app; right; left; reflexivity).
      destruct I0 as [I0|[I0|[I0|[]]]]; [apply (D p); auto|apply Lx; rewrite <- I0; reflexivity|apply (D q); auto].
    - intros p E. exfalso. assert (I0 : In (mtc x) [MText p; MSuper]) by (rewrite <- E, map_app; apply in_or_app; right; left; reflexivity).
      destruct I0 as [I0|[I0|[]]]; [apply (D p); auto|apply Lx; rewrite <- I0; reflexivity].
    - intros p E. exfalso. assert (I0 : In (mtc x) [MSuper; MText p]) by (rewrite <- E, map_app; apply in_or_app; right; left; reflexivity).
      destruct I0 as [I0|[I0|[]]]; [apply Lx; rewrite <- I0; reflexivity|apply (D p); auto]. }
  (* the value is a text *)
  pose proof (text_ascii x t Gx Ex) as At. rewrite Ex in *. assert (Lt : forall s, lg x s <-> s = t) by (apply (g_text x Gx), Ex).
  assert (SUP : forall z, In z (a ++ c) -> mtc z = MSuper -> forall s, lg z s).
  { intros z Iz Ez. assert (Gz : good z) by (apply in_app_iff in Iz; rewrite Forall_forall in Ga, Gc; destruct Iz; auto). destruct (g_kind z Gz [] GSuper) as [_ [_ H]]; [rewrite Ez; reflexivity|exact H]. }
  assert (ANY : forall z e, In z (a ++ c) -> mtc z = MAny e -> ascii e /\ forall s, lg z s <-> anyL e s).
  { intros z e Iz Ez. assert (Gz : good z) by (apply in_app_iff in Iz; rewrite Forall_forall in Ga, Gc; destruct Iz; auto). destruct (g_kind z Gz e GAny) as [A [_ H]]; [rewrite Ez; reflexivity|auto]. }
  assert (ONE : forall ys m, map mtc ys = [m] -> exists y, ys = [y] /\ mtc y = m) by (intros [|y [|? ?]] m E; try discriminate E; exists y; injection E as <-; auto).
  assert (NB : forall p q, map mtc (a ++ x :: c) = [MText p; MSuper; MText q] -> (a = [] /\ map mtc c = [MSuper; MText q] /\ t = p) \/ (map mtc a = [MText p; MSuper] /\ c = [] /\ t = q)).
  { intros p q E. rewrite map_app in E. cbn [map] in E. rewrite Ex in E. destruct a as [|a0 [|a1 [|a2 a]]]; cbn in E.
    - injection E as -> E. left. auto.
    - injection E as _ E _. discriminate.
    - injection E as E0 E1 -> E2. destruct c; [|discriminate]. right. cbn. rewrite E0, E1. auto.
    - injection E as _ _ _ E. destruct a; discriminate. }
  pose proof (opt_text_cases t lo ro (olen lo) (olen ro) (-1)) as OC. cbv zeta in OC.
  assert (LM : forall m, lo = Some m -> res a m /\ a <> []) by (intros m ->; destruct Pa as [[_ ?]|[N [m' [E [R _]]]]]; [discriminate|injection E as <-; auto]).
  assert (RM : forall m, ro = Some m -> res c m /\ c <> []) by (intros m ->; destruct Pc as [[_ ?]|[N [m' [E [R _]]]]]; [discriminate|injection E as <-; auto]).
  assert (LN : lo = None -> a = []) by (intros ->; destruct Pa as [[? _]|[_ [m' [E _]]]]; [assumption|discriminate]).
  assert (RN : ro = None -> c = []) by (intros ->; destruct Pc as [[? _]|[_ [m' [E _]]]]; [assumption|discriminate]).
  assert (LO : forall o, oopt lo = Some o -> exists m, lo = Some m /\ optimizeMatcher m = o) by (intros o E; destruct lo as [m|]; [exists m; cbn in E; injection E as <-; auto|discriminate]).
  assert (RO : forall o, oopt ro = Some o -> exists m, ro = Some m /\ optimizeMatcher m = o) by (intros o E; destruct ro as [m|]; [exists m; cbn in E; injection E as <-; auto|discriminate]).
  assert (LON : oopt lo = None -> lo = None) by (destruct lo; [discriminate|auto]). assert (RON : oopt ro = None -> ro = None) by (destruct ro; [discriminate|auto]).
  set (M := MBTree (MText t) lo ro (olen lo) (olen ro) (-1)) in *.
  assert (B1 : forall p, map mtc (a ++ x :: c) = [MText p; MSuper] -> optimizeMatcher M = MPrefix p).
  { intros p E. rewrite map_app in E. cbn [map] in E. rewrite Ex in E. destruct a as [|a0 [|a1 a]]; cbn in E; [|injection E as _ E _; discriminate|injection E as _ _ E; destruct a; discriminate].
    injection E as -> E. destruct (ONE _ _ E) as [y [-> Ey]]. destruct Pa as [[_ ->]|[N _]]; [|contradiction]. destruct Pc as [[? _]|[_ [m [-> [R _]]]]]; [discriminate|].
    unfold M. rewrite optimize_text. rewrite (r_one _ _ R y eq_refl), Ey. reflexivity. }
  assert (B2 : forall p, map mtc (a ++ x :: c) = [MSuper; MText p] -> optimizeMatcher M = MSuffix p).
  { intros p E. rewrite map_app in E. cbn [map] in E. rewrite Ex in E. destruct a as [|a0 [|a1 a]]; cbn in E; [discriminate| |injection E as _ _ E; destruct a; discriminate].
    injection E as E0 -> E. destruct c; [|discriminate]. destruct Pc as [[_ ->]|[N _]]; [|contradiction]. destruct Pa as [[? _]|[_ [m [-> [R _]]]]]; [discriminate|].
    unfold M. rewrite optimize_text. rewrite (r_one _ _ R a0 eq_refl), E0. reflexivity. }
  assert (B3 : forall p q, map mtc (a ++ x :: c) = [MText p; MSuper; MText q] -> optimizeMatcher M = MPrefixSuffix p q).
  { intros p q E. unfold M. rewrite optimize_text. destruct (NB p q E) as [[-> [E3 ->]]|[E3 [-> ->]]].
    - destruct Pa as [[_ ->]|[N _]]; [|contradiction]. destruct Pc as [[-> _]|[_ [m [-> [R _]]]]]; [discriminate|]. cbn [oopt]. rewrite (r_suffix_back _ _ R q E3). reflexivity.
    - destruct Pc as [[_ ->]|[N _]]; [|contradiction]. destruct Pa as [[-> _]|[_ [m [-> [R _]]]]]; [discriminate|]. cbn [oopt]. rewrite (r_prefix_back _ _ R p E3). reflexivity. }
  assert (FIN : forall o, optimizeMatcher M = o -> optimizeMatcher o = o -> o <> MSuper -> (forall e, o <> MAny e) -> (~ bad (map mtc (a ++ x :: c)) -> free (catL (map lg (a ++ x :: c))) (sem o)) ->
    (forall p, o = MPrefix p -> map mtc (a ++ x :: c) = [MText p; MSuper] \/ map mtc (a ++ x :: c) = [MPrefix p]) -> (forall p, o = MSuffix p -> map mtc (a ++ x :: c) = [MSuper; MText p] \/ map mtc (a ++ x :: c) = [MSuffix p]) ->
    res (a ++ x :: c) M).
  { intros o <- H1 H2 H3 H4 H5 H6. split; auto.
    - intros y E. exfalso. rewrite E in L2. cbn in L2. lia.
    - intros; contradiction.
    - intros e E. exfalso. apply (H3 e E). }
  destruct OC as [[E1 [E2 EO]]|[[E1 [E2 EO]]|[[E1 [E2 EO]]|[[u [E1 [E2 EO]]]|[[u [E1 [E2 EO]]]|[[u [E1 [E2 EO]]]|[[u [E1 [E2 EO]]]|[[E1 [E2 EO]]|EO]]]]]]]].
  - (* * text * *) destruct (LO _ E1) as [ml [-> Ol]]. destruct (RO _ E2) as [mr [-> Or]]. destruct (LM ml eq_refl) as [Rl Na]. destruct (RM mr eq_refl) as [Rr Nc].
    destruct (ONE _ _ (r_super _ _ Rl Ol)) as [ya [-> Ya]]. destruct (ONE _ _ (r_super _ _ Rr Or)) as [yc [-> Yc]].
    apply (FIN _ EO); try discriminate; try reflexivity.
    + intros _. apply (free_ext (fun s => exists u v, s = u ++ t ++ v)); [|apply free_contains, At]. intros s. cbn [map app catL]. split.
      * intros [u [v ->]]. exists u, (t ++ v). split; [reflexivity|]. split; [apply SUP; [left; reflexivity|exact Ya]|]. exists t, v. split; [reflexivity|]. split; [apply Lt; reflexivity|]. exists v, []. rewrite app_nil_r. split; [reflexivity|]. split; [apply SUP; [right; left; reflexivity|exact Yc]|reflexivity].
      * intros [u [v [-> [_ [w [y [-> [H [z [n [-> [_ ->]]]]]]]]]]]]. apply Lt in H. subst w. exists u, z. rewrite app_nil_r. reflexivity.
  - (* * text *) destruct (LO _ E1) as [ml [-> Ol]]. apply RON in E2. subst ro. destruct (LM ml eq_refl) as [Rl Na]. rewrite (RN eq_refl) in *.
    destruct (ONE _ _ (r_super _ _ Rl Ol)) as [ya [-> Ya]].
    apply (FIN _ EO); try discriminate; try reflexivity.
    + intros _. apply (free_ext (fun s => exists u, s = u ++ t)); [|apply free_suffix, At]. intros s. cbn [map app catL]. split.
      * intros [u ->]. exists u, t. split; [reflexivity|]. split; [apply SUP; [left; reflexivity|exact Ya]|]. exists t, []. rewrite app_nil_r. split; [reflexivity|]. split; [apply Lt; reflexivity|reflexivity].
      * intros [u [v [-> [_ [w [y [-> [H ->]]]]]]]]. apply Lt in H. subst w. exists u. rewrite app_nil_r. reflexivity.
    + intros p E. injection E as <-. left. cbn. rewrite Ya, Ex. reflexivity.
  - (* text * *) apply LON in E1. subst lo. destruct (RO _ E2) as [mr [-> Or]]. destruct (RM mr eq_refl) as [Rr Nc]. rewrite (LN eq_refl) in *.
    destruct (ONE _ _ (r_super _ _ Rr Or)) as [yc [-> Yc]].
    apply (FIN _ EO); try discriminate; try reflexivity.
    + intros _. apply (free_ext (fun s => exists u, s = t ++ u)); [|apply free_prefix, At]. intros s. cbn [map app catL]. split.
      * intros [u ->]. exists t, u. split; [reflexivity|]. split; [apply Lt; reflexivity|]. exists u, []. rewrite app_nil_r. split; [reflexivity|]. split; [apply SUP; [left; reflexivity|exact Yc]|reflexivity].
      * intros [u [v [-> [H [w [y [-> [_ ->]]]]]]]]. apply Lt in H. subst u. exists w. rewrite app_nil_r. reflexivity.
    + intros p E. injection E as <-. left. cbn. rewrite Yc, Ex. reflexivity.
  - (* text * text, the right one longer *) apply LON in E1. subst lo. destruct (RO _ E2) as [mr [-> Or]]. destruct (RM mr eq_refl) as [Rr Nc]. rewrite (LN eq_refl) in *.
    destruct (r_suffix _ _ Rr u Or) as [Sc1|Sc1]; [|exfalso; destruct (ONE _ _ Sc1) as [y [-> Ey]]; cbn [app chain] in CH; destruct CH as [[_ _ _ [_ PL]] _]; exact (PL u t Ex Ey)].
    apply (FIN _ EO); try discriminate; try reflexivity.
    + intros B. exfalso. apply B. exists t, u. cbn. rewrite Ex, Sc1. reflexivity.
  - destruct (LO _ E1) as [ml [-> Ol]]. apply RON in E2. subst ro. destruct (LM ml eq_refl) as [Rl Na]. rewrite (RN eq_refl) in *.
    destruct (r_prefix _ _ Rl u Ol) as [Sa1|Sa1]; [|exfalso; destruct (ONE _ _ Sa1) as [y [-> Ey]]; cbn [app chain] in CH; destruct CH as [[_ _ _ [PL _]] _]; exact (PL u t Ey Ex)].
    apply (FIN _ EO); try discriminate; try reflexivity.
    + intros B. exfalso. apply B. exists u, t. rewrite map_app. cbn. rewrite Ex, Sa1. reflexivity.
  - (* *. text *) destruct (LO _ E1) as [ml [-> Ol]]. apply RON in E2. subst ro. destruct (LM ml eq_refl) as [Rl Na]. rewrite (RN eq_refl) in *.
    destruct (ONE _ _ (r_any _ _ Rl u Ol)) as [ya [-> Ya]]. destruct (ANY ya u ltac:(left; reflexivity) Ya) as [Au Ly].
    apply (FIN _ EO); try discriminate; try reflexivity.
    intros _. apply (free_ext (fun s => exists v, s = v ++ t /\ anyL u v)); [|apply (free_suffix_any t u At Au)]. intros s. cbn [map app catL]. split.
    + intros [v [-> H]]. exists v, t. split; [reflexivity|]. split; [apply Ly, H|]. exists t, []. rewrite app_nil_r. split; [reflexivity|]. split; [apply Lt; reflexivity|reflexivity].
    + intros [v [z [-> [H [w [y [-> [H' ->]]]]]]]]. apply Lt in H'. subst w. exists v. rewrite app_nil_r. split; [reflexivity|apply Ly, H].
  - apply LON in E1. subst lo. destruct (RO _ E2) as [mr [-> Or]]. destruct (RM mr eq_refl) as [Rr Nc]. rewrite (LN eq_refl) in *.
    destruct (ONE _ _ (r_any _ _ Rr u Or)) as [yc [-> Yc]]. destruct (ANY yc u ltac:(left; reflexivity) Yc) as [Au Ly].
    apply (FIN _ EO); try discriminate; try reflexivity.
    intros _. apply (free_ext (fun s => exists v, s = t ++ v /\ anyL u v)); [|apply (free_prefix_any t u At Au)]. intros s. cbn [map app catL]. split.
    + intros [v [-> H]]. exists t, v. split; [reflexivity|]. split; [apply Lt; reflexivity|]. exists v, []. rewrite app_nil_r. split; [reflexivity|]. split; [apply Ly, H|reflexivity].
    + intros [v [z [-> [H [w [y [-> [H' ->]]]]]]]]. apply Lt in H. subst v. exists w. rewrite app_nil_r. split; [reflexivity|apply Ly, H'].
  - exfalso. apply LON in E1. apply RON in E2. rewrite (LN E1), (RN E2) in NE. destruct NE as [NE|NE]; apply NE; reflexivity.
  - (* unchanged *) apply (FIN _ EO); try discriminate.
    + rewrite optimize_text, Ia, Ic. unfold M in EO. rewrite optimize_text in EO. exact EO.
    + intros _. unfold o0 in F1. rewrite Ex in F1. exact F1.
Qed.

(** ** compileMatchers *)
Lemma longest_spec : forall ms i mx found, (-1 <= mx)%Z -> (forall m, In m ms -> (-1 <= Len m)%Z) ->
  match longest ms i mx found with
  | None => found = None /\ (mx = (-1)%Z -> forall m, In m ms -> Len m = (-1)%Z)
  | Some (j, v) => found = Some (j, v) \/ exists a b, ms = a ++ v :: b /\ j = i + length a /\ Len v <> (-1)%Z end.
Proof.
  induction ms as [|m ms IH]; intros i mx found Hx B; cbn [longest].
  - destruct found as [[j v]|]; [left; reflexivity|]. split; [reflexivity|]. intros _ m [].
  - destruct (Z.eqb_spec (Len m) (-1)) as [E|E]; cbn [negb andb].
    + specialize (IH (S i) mx found Hx (fun m0 H => B m0 (or_intror H))). destruct (longest ms (S i) mx found) as [[j v]|].
      * destruct IH as [IH|[a [b [E1 [E2 E3]]]]]; [left; exact IH|]. right. exists (m :: a), b. rewrite E1. cbn [length]. split; [reflexivity|]. split; [lia|exact E3].
      * destruct IH as [IH1 IH2]. split; [exact IH1|]. intros Hm m0 [<-|I0]; [exact E|apply IH2; auto].
    + destruct (Z.leb_spec mx (Len m)) as [LE|LT].
      * specialize (IH (S i) (Len m) (Some (i, m)) (B m (or_introl eq_refl)) (fun m0 H => B m0 (or_intror H))). destruct (longest ms (S i) (Len m) (Some (i, m))) as [[j v]|].
        -- right. destruct IH as [IH|[a [b [E1 [E2 E3]]]]]; [injection IH as <- <-; exists [], ms; split; [reflexivity|]; split; [cbn; lia|exact E]|].
           exists (m :: a), b. rewrite E1. cbn [length]. split; [reflexivity|]. split; [lia|exact E3].
        -- destruct IH; discriminate.
      * specialize (IH (S i) mx found Hx (fun m0 H => B m0 (or_intror H))). pose proof (B m (or_introl eq_refl)). destruct (longest ms (S i) mx found) as [[j v]|].
        -- destruct IH as [IH|[a [b [E1 [E2 E3]]]]]; [left; exact IH|]. right. exists (m :: a), b. rewrite E1. cbn [length]. split; [reflexivity|]. split; [lia|exact E3].
        -- destruct IH as [IH1 IH2]. split; [exact IH1|]. intros Hm. lia.
Qed.
Lemma good_len x : good x -> (-1 <= Len (mtc x))%Z.
Proof. intros G. destruct (Z.eq_dec (Len (mtc x)) (-1)) as [E|E]; [lia|]. destruct (good_fixed x G E) as [k [F _]]. unfold Len. lia. Qed.
Lemma glue_pair a b : Len a <> (-1)%Z -> Len b <> (-1)%Z -> glueMatchers [a; b] <> None.
Proof.
  intros A B. unfold glueMatchers. destruct (glueMatchersAsEvery [a; b]); [discriminate|]. unfold glueMatchersAsRow. cbn [length Nat.leb existsb].
  destruct (Z.eqb_spec (Len a) (-1)); [contradiction|]. destruct (Z.eqb_spec (Len b) (-1)); [contradiction|]. discriminate.
Qed.
Lemma glue_same a b e p q : glue_kind a = Some (e, p) -> glue_kind b = Some (e, q) -> glueMatchers [a; b] <> None.
Proof.
  intros A B. unfold glueMatchers, glueMatchersAsEvery. cbn [length Nat.leb glue_kinds]. rewrite A, B. rewrite (proj2 (zs_eqb_iff e e) eq_refl).
  destruct (_ && _ && _); [discriminate|]. destruct (_ && _ && _); [discriminate|]. destruct (_ && _ && _); discriminate.
Qed.
Lemma firstn_exact {A} (a b : list A) : firstn (length a) (a ++ b) = a.
Proof. rewrite firstn_app, firstn_all, Nat.sub_diag, firstn_O, app_nil_r. reflexivity. Qed.
Lemma skipn_exact {A} (a : list A) x b : skipn (S (length a)) (a ++ x :: b) = b.
Proof. replace (S (length a)) with (length a + 1) by lia. rewrite <- skipn_add, skipn_app, skipn_all, Nat.sub_diag. reflexivity. Qed.
Lemma map_split {A B} (f : A -> B) : forall l a v b, map f l = a ++ v :: b -> exists l1 x l2, l = l1 ++ x :: l2 /\ map f l1 = a /\ f x = v /\ map f l2 = b.
Proof.
  induction l as [|y l IH]; intros a v b E; [destruct a; discriminate|]. destruct a as [|a0 a]; cbn in E.
  - injection E as <- <-. exists [], y, l. auto.
  - injection E as <- E. destruct (IH a v b E) as [l1 [x [l2 [-> [E1 [E2 E3]]]]]]. exists (y :: l1), x, l2. cbn. rewrite E1. auto.
Qed.
Lemma catL_nil_all Ls : catL Ls [] -> Forall (fun L => L []) Ls.
Proof. induction Ls as [|L Ls IH]; intros H; [constructor|]. destruct H as [u [v [E [A B]]]]. symmetry in E. apply app_eq_nil in E. destruct E as [-> ->]. constructor; auto. Qed.
Lemma compile_res : forall fuel xs, Forall good xs -> chain xs -> noglue (map mtc xs) -> xs <> [] -> length xs <= fuel ->
  exists m, compileMatchers_f fuel (map mtc xs) = Some m /\ res xs m.
Proof.
  induction fuel as [|f IH]; intros xs G C NG NE L; [destruct xs; [contradiction|cbn in L; lia]|].
  cbn [compileMatchers_f]. destruct xs as [|x0 rest]; [contradiction|]. cbn [map]. destruct rest as [|y rest].
  { exists (mtc x0). split; [reflexivity|]. apply res_single. inversion G; assumption. }
  cbn [map]. change (mtc x0 :: mtc y :: map mtc rest) with (map mtc (x0 :: y :: rest)). set (xs := x0 :: y :: rest) in *.
  rewrite (NG [] (map mtc xs) []) by (rewrite app_nil_r; reflexivity).
  pose proof (longest_spec (map mtc xs) 0 (-1) None ltac:(lia)) as LS. specialize (LS ltac:(intros m Im; apply in_map_iff in Im; destruct Im as [z [<- Iz]]; apply good_len; rewrite Forall_forall in G; auto)).
  destruct (longest (map mtc xs) 0 (-1) None) as [[j v]|].
  - destruct LS as [LS|[ma [mb [E1 [E2 E3]]]]]; [discriminate|]. destruct (map_split mtc xs ma v mb E1) as [a [x [c [EX [Ea [Ev Ec]]]]]]. cbn [plus] in E2. subst j ma mb v. rewrite E1, firstn_exact, skipn_exact. clear E1.
    assert (L2 : 2 <= length xs) by (cbn; lia). clearbody xs. subst xs. pose proof G as G0. apply Forall_app in G. destruct G as [Ga G]. inversion G as [|? ? Gx Gc]; subst. rewrite app_length in L. cbn [length] in L.
    pose proof C as C0. apply chain_app in C. destruct C as [Ca [C _]]. assert (Cc : chain c) by (destruct c; [exact I|apply C]).
    assert (NGa : noglue (map mtc a)). { apply (noglue_sub [] _ (map mtc (x :: c))). rewrite map_app in NG. exact NG. }
    assert (NGc : noglue (map mtc c)). { apply (noglue_sub (map mtc a ++ [mtc x]) _ []). rewrite app_nil_r, <- app_assoc. rewrite map_app in NG. exact NG. }
    assert (Na : forall a' z, a = a' ++ [z] -> Len (mtc z) = (-1)%Z).
    { intros a' z ->. destruct (Z.eq_dec (Len (mtc z)) (-1)) as [E|E]; [exact E|]. exfalso. apply (glue_pair _ _ E E3). apply (NG (map mtc a') _ (map mtc c)). rewrite !map_app. cbn. rewrite <- app_assoc. reflexivity. }
    assert (Nc : forall z c', c = z :: c' -> Len (mtc z) = (-1)%Z).
    { intros z c' ->. destruct (Z.eq_dec (Len (mtc z)) (-1)) as [E|E]; [exact E|]. exfalso. apply (glue_pair _ _ E3 E). apply (NG (map mtc a) _ (map mtc c')). rewrite !map_app. cbn. reflexivity. }
    assert (PA : exists lo, (match map mtc a with [] => Some None | _ => match compileMatchers_f f (map mtc a) with Some z => Some (Some z) | None => None end end) = Some lo /\ part a lo).
    { destruct a as [|a0 a1]; [exists None; split; [reflexivity|left; auto]|]. destruct (IH (a0 :: a1) Ga Ca NGa ltac:(discriminate) ltac:(cbn [length] in *; lia)) as [m [Em Rm]]. rewrite Em. exists (Some m). split; [reflexivity|]. right. split; [discriminate|]. exists m. split; [reflexivity|]. split; [exact Rm|].
      split.
      - destruct a1 as [|a2 a1]; [rewrite (r_one _ _ Rm a0 eq_refl); apply (Na [] a0); reflexivity|]. apply (r_many _ _ Rm). cbn [length]. lia.
      - intros [p [q E]]. destruct a1 as [|a2 [|a3 [|a4 a1]]]; try discriminate E. injection E as _ _ E. assert (Len (mtc a3) = (-1)%Z) by (apply (Na [a0; a2] a3); reflexivity). rewrite E in H. unfold Len in H. cbn in H. lia. }
    assert (PC : exists ro, (match map mtc c with [] => Some None | _ => match compileMatchers_f f (map mtc c) with Some z => Some (Some z) | None => None end end) = Some ro /\ part c ro).
    { destruct c as [|a0 a1]; [exists None; split; [reflexivity|left; auto]|]. destruct (IH (a0 :: a1) Gc Cc NGc ltac:(discriminate) ltac:(cbn [length] in *; lia)) as [m [Em Rm]]. rewrite Em. exists (Some m). split; [reflexivity|]. right. split; [discriminate|]. exists m. split; [reflexivity|]. split; [exact Rm|].
      pose proof (Nc a0 a1 eq_refl) as N0. split.
      - destruct a1 as [|a2 a1]; [rewrite (r_one _ _ Rm a0 eq_refl); exact N0|]. apply (r_many _ _ Rm). cbn [length]. lia.
      - intros [p [q E]]. destruct a1 as [|a2 [|a3 [|a4 a1]]]; try discriminate E. injection E as E _ _. rewrite E in N0. unfold Len in N0. cbn in N0. lia. }
    destruct PA as [lo [-> PA]]. destruct PC as [ro [-> PC]]. eexists. split; [reflexivity|]. apply btree_res; auto.
    destruct a; [|left; discriminate]. destruct c; [|right; discriminate]. cbn in L2. lia.
  - destruct LS as [_ LS]. specialize (LS eq_refl).
    assert (LS' : forall z, In z xs -> Len (mtc z) = (-1)%Z) by (intros z Iz; apply LS, in_map, Iz).
    inversion G as [|? ? G0 Gr]; subst. destruct C as [[As Anull Apref] Cr]. fold chain in Cr.
    assert (NGr : noglue (map mtc (y :: rest))) by (apply (noglue_sub [mtc x0] _ []); rewrite app_nil_r; exact NG).
    unfold xs in L. cbn [length] in L. destruct (IH (y :: rest) Gr Cr NGr ltac:(discriminate) ltac:(cbn [length] in *; lia)) as [r [Er Rr]]. change (mtc y :: map mtc rest) with (map mtc (y :: rest)). rewrite Er. eexists. split; [reflexivity|].
    assert (L0 : Len (mtc x0) = (-1)%Z) by (apply LS'; left; reflexivity). assert (L1 : Len (mtc y) = (-1)%Z) by (apply LS'; right; left; reflexivity).
    pose proof (Apref L0 (or_introl L1)) as P0.
    assert (NBr : ~ bad (map mtc (y :: rest))). { intros [p [q E]]. cbn in E. injection E as E _. rewrite E in L1. unfold Len in L1. cbn in L1. lia. }
    assert (NT : forall z t, In z xs -> mtc z <> MText t). { intros z t Iz E. specialize (LS' z Iz). rewrite E in LS'. unfold Len in LS'. cbn in LS'. lia. }
    assert (FR : free (catL (map lg (y :: rest))) (sem r) /\ free (catL (map lg (y :: rest))) (sem (optimizeMatcher r))).
    { destruct rest as [|z rest].
      - rewrite (r_one _ _ Rr y eq_refl). inversion Gr; subst. rewrite (g_opt y) by assumption. assert (F : free (catL (map lg [y])) (sem (mtc y))) by (apply (free_ext (lg y)); [intros s; symmetry; apply catL_one|apply good_free; assumption]). auto.
      - split; [apply (r_many _ _ Rr); cbn; lia|apply (r_opt _ _ Rr); [cbn; lia|exact NBr]]. }
    destruct FR as [F1 F2].
    assert (NN : ~ (lg x0 [] /\ catL (map lg (y :: rest)) [])).
    { intros [A B]. apply catL_nil_all in B. inversion B as [|? ? B0 _]; subst. destruct (Anull A B0) as [e [p [q [Q1 Q2]]]]. apply (glue_same _ _ e p q Q1 Q2). apply (NG [] _ (map mtc rest)). reflexivity. }
    assert (EQ : forall s, catL [lg x0; catL (map lg (y :: rest))] s <-> catL (map lg xs) s).
    { intros s. unfold xs. cbn [map]. split.
      - intros [u [v [-> [A B]]]]. apply (proj1 (catL_one _ _)) in B. exists u, v. auto.
      - intros [u [v [-> [A B]]]]. exists u, v. split; [reflexivity|]. split; [exact A|]. apply (proj2 (catL_one _ _)). exact B. }
    assert (FB : forall r', free (catL (map lg (y :: rest))) (sem r') -> free (catL (map lg xs)) (sem (MBTree (mtc x0) None (Some r') 0 (-1) (-1)))).
    { intros r' F. rewrite sem_btree. split; [reflexivity|]. split; [|apply goods_loose; constructor; assumption]. intros s Hs. cbn [osem]. destruct (btree_pref _ _ _ _ s P0 F Hs NN) as [b [Mb Hb]]. exists b. split; [exact Mb|]. rewrite Hb. apply EQ. }
    assert (EN : NewBTree (mtc x0) None (Some r) = MBTree (mtc x0) None (Some r) 0 (-1) (-1)). { unfold NewBTree. destruct F1 as [Lr _]. unfold Len at 1 3. rewrite Lr. change (negb (-1 =? -1)%Z) with false. rewrite andb_false_r. reflexivity. }
    rewrite EN. assert (OP : forall r', optimizeMatcher (MBTree (mtc x0) None (Some r') 0 (-1) (-1)) = MBTree (mtc x0) None (Some (optimizeMatcher r')) 0 (-1) (-1)).
    { intros r'. destruct (mtc x0) eqn:E0; try reflexivity. exfalso. apply (NT x0 s); [left; reflexivity|exact E0]. }
    split; rewrite ?OP; auto; try discriminate.
    + rewrite (r_fix _ _ Rr). reflexivity.
    + intros p q E. exfalso. apply (NT x0 p); [left; reflexivity|]. cbn in E. congruence.
    + intros p E. exfalso. apply (NT x0 p); [left; reflexivity|]. cbn in E. congruence.
    + intros p E. exfalso. apply (NT y p); [right; left; reflexivity|]. cbn in E. congruence.
Qed.
End Glue.
