(** * Compiled alternatives (proofs for C46). *)
From Coq Require Import String.
From Coq Require Import ZArith Arith List Bool Lia.
From Verif Require Import Utf8 GoStr GlobLex GlobMatch GlobCompile GlobSpec GlobFragment GlobFactor GlobSem GlobGlue GlobLeaf GlobSeq.
Import ListNotations.
Open Scope nat_scope.

(** A pattern of one item that is compiled to m: the pattern is compiled to the same. *)
(** Here only ASCII strings. *)
#[local] Instance ascii_mode : Mode := false.
Lemma compile_wrap seps n f m : compile_f f n seps = Some m -> optimizeMatcher (optimizeMatcher m) = optimizeMatcher m -> compile_f (S f) (NPattern [n]) seps = Some (optimizeMatcher m).
Proof. intros C O. cbn [compile_f map_opt]. rewrite C. cbn [option_map]. unfold minimizeMatchers, compileMatchers. cbn. rewrite O. reflexivity. Qed.

(** ** No common beginning or end *)
Definition fine (seps : list Z) (ns : list Node) : Prop := Forall term ns /\ sequence seps ns /\ forall a b, ~ between seps ns a b.
Lemma alternatives_compiled seps alts : ascii seps -> alts <> [] -> Forall (fine seps) alts ->
  (length alts = 1 \/ (forall n, ~ (forall ns, In ns alts -> hd_error ns = Some n)) /\ (forall n, ~ (forall ns, In ns alts -> hd_error (rev ns) = Some n))) ->
  exists f m, compile_f f (NPattern [NAnyOf (map NPattern alts)]) seps = Some m
    /\ forall s, ascii s -> (s = [] -> forall n, In [n] alts -> ~ negative n) -> right (sem m) (den seps (NAnyOf (map NPattern alts))) s.
Proof.
  intros As NE F D.
  assert (MN : minimizeTreeAnyOf (map NPattern alts) = None).
  { assert (P : forallb is_pattern (map NPattern alts) = true) by (apply forallb_forall; intros c I; apply in_map_iff in I; destruct I as [ns [<- _]]; reflexivity).
    destruct D as [D|[D1 D2]].
    - unfold minimizeTreeAnyOf. rewrite P. cbn [negb]. unfold commonChildren. rewrite map_length, D. reflexivity.
    - apply no_common; [exact P| |]; intros n H; [apply (D1 n)|apply (D2 n)]; intros ns I; apply (H (NPattern ns)); apply in_map, I. }
  assert (EX : exists ms, Forall2 (fun ns m => (exists f, compile_f f (NPattern ns) seps = Some m) /\ optimizeMatcher m = m /\ forall s, ascii s -> (s = [] -> forall n, ns = [n] -> ~ negative n) -> right (sem m) (den seps (NPattern ns)) s) alts ms).
  { apply Forall_exists2. eapply Forall_impl; [|exact F]. intros ns [T [Q B]]. destruct (sequence_compiled seps ns As T Q B (fun B0 => False_ind _ (diff_false_true B0))) as [f [m [C [O R]]]]. exists m. eauto. }
  destruct EX as [ms FM].
  assert (MC : Forall (fun p => exists f m0, compile_f f (NPattern (fst p)) seps = Some m0 /\ optimizeMatcher m0 = snd p) (combine alts ms)).
  { clear - FM. induction FM as [|ns m alts ms [[f C] [O _]] F IH]; constructor; [exists f, m; auto|exact IH]. }
  destruct (map_opt_fuel (fun p => NPattern (fst p)) snd seps _ MC) as [f Hf].
  assert (E1 : map (fun p : list Node * Matcher => NPattern (fst p)) (combine alts ms) = map NPattern alts) by (clear - FM; induction FM; cbn; congruence).
  assert (E2 : map (@snd (list Node) Matcher) (combine alts ms) = ms) by (clear - FM; induction FM; cbn; congruence).
  rewrite E1, E2 in Hf. assert (C0 : compile_f (S f) (NAnyOf (map NPattern alts)) seps = Some (MAnyOf ms)) by (cbn [compile_f]; rewrite MN, Hf; reflexivity).
  assert (OO : optimizeMatcher (optimizeMatcher (MAnyOf ms)) = optimizeMatcher (MAnyOf ms)).
  { destruct FM as [|ns m alts ms [_ [O _]] FM]; [reflexivity|]. destruct ms; [exact O|reflexivity]. }
  pose proof (compile_wrap seps _ _ _ C0 OO) as C1. eexists. eexists. split; [exact C1|].
  intros s Hs HN. assert (R : right (sem (MAnyOf ms)) (den seps (NAnyOf (map NPattern alts))) s).
  { apply (right_ext _ (unionL (map (fun ns => den seps (NPattern ns)) alts))).
    - unfold unionL. rewrite den_anyof. split.
      + intros [L [I H]]. apply in_map_iff in I. destruct I as [ns [<- I]]. exists (NPattern ns). split; [apply in_map, I|exact H].
      + intros [n [I H]]. apply in_map_iff in I. destruct I as [ns [<- I]]. exists (den seps (NPattern ns)). split; [apply in_map_iff; eauto|exact H].
    - cbn [sem]. apply any_match_right. assert (K : forall ns, In ns alts -> (s = [] -> forall n, ns = [n] -> ~ negative n)) by (intros ns I E n ->; apply (HN E n I)).
      clear - FM K Hs. induction FM as [|ns m alts ms [_ [_ R]] F IH]; cbn [map]; constructor; [apply R; [exact Hs|apply K; left; reflexivity]|]. apply IH. intros ns' I. apply K. right. exact I. }
  destruct ms as [|m [|m' ms]]; [exact R| |exact R]. cbn [optimizeMatcher]. destruct R as [b [Mb Hb]]. exists b. split; [|exact Hb]. cbn in Mb. destruct (sMatch (sem m) s) as [[|]|]; congruence.
Qed.

(** ** A common first term, a common last term *)
Lemma inner_formula tl tr i j n : forall others bl br, (i < j \/ bl = true) ->
  common_inner others tl tr i j n bl br = (bl || existsb (fun o => negb (node_eqb tl (nth i (children o) NNothing))) others,
    br || existsb (fun o => negb (node_eqb tr (nth (j + length (children o) - n) (children o) NNothing))) others).
Proof.
  induction others as [|o others IH]; intros bl br H; cbn [common_inner existsb]; [rewrite !orb_false_r; reflexivity|].
  destruct (bl && br) eqn:B; [apply andb_true_iff in B; destruct B as [-> ->]; reflexivity|].
  assert (K : negb (bl || negb (node_eqb tl (nth i (children o) NNothing))) && (j <=? i) = false) by (destruct H as [H| ->]; [rewrite (proj2 (Nat.leb_gt j i) H), andb_false_r; reflexivity|reflexivity]).
  rewrite K, orb_false_r. rewrite IH; [rewrite !orb_assoc; reflexivity|]. destruct H as [H| ->]; [left; exact H|right; reflexivity].
Qed.
Lemma inner_right tl tr i j n : forall others bl, common_inner others tl tr i j n bl true = (bl || existsb (fun o => negb (node_eqb tl (nth i (children o) NNothing))) others, true).
Proof.
  induction others as [|o others IH]; intros bl; cbn [common_inner existsb]; [rewrite orb_false_r; reflexivity|]. rewrite andb_true_r. destruct bl; [reflexivity|]. cbn [orb]. apply IH.
Qed.
Lemma least_first c t n : Forall (fun o => length (children o) = n) (c :: t) -> least (c :: t) 0 None = Some 0.
Proof.
  intros F. inversion F as [|? ? E F']; subst. cbn [least]. generalize 1. clear F. induction F' as [|o t E F IH]; intros i; [reflexivity|]. cbn [least]. rewrite E, Nat.ltb_irrefl. apply IH.
Qed.
Definition around (pre post : list Node) (l : Node) : Node := NPattern (pre ++ [l] ++ post).
Lemma differ_first l ls : (exists a b, In a (l :: ls) /\ In b (l :: ls) /\ a <> b) -> exists b, In b ls /\ node_eqb l b = false.
Proof.
  intros [a [b [Ia [Ib N]]]]. assert (K : forall x, node_eqb l x = false <-> l <> x) by (intros x; rewrite <- not_true_iff_false, node_eqb_iff; reflexivity).
  destruct Ia as [<-|Ia].
  - destruct Ib as [<-|Ib]; [contradiction N; reflexivity|]. exists b. split; [exact Ib|]. apply K, N.
  - destruct (node_eqb l a) eqn:E; [|eauto]. apply node_eqb_iff in E. subst a. destruct Ib as [<-|Ib]; [contradiction N; reflexivity|]. exists b. split; [exact Ib|]. apply K. congruence.
Qed.
Lemma common_around pre post ls : length pre <= 1 -> length post <= 1 -> 1 <= length pre + length post -> (exists a b, In a ls /\ In b ls /\ a <> b) -> commonChildren (map (around pre post) ls) = (pre, post).
Proof.
  intros L1 L2 L3 D. destruct ls as [|l ls]; [destruct D as [a [_ [[] _]]]|]. destruct (differ_first l ls D) as [b [Ib Nb]].
  assert (E1 : length (map (around pre post) (l :: ls)) <=? 1 = false) by (apply Nat.leb_gt; rewrite map_length; destruct ls; [destruct Ib|cbn; lia]).
  unfold commonChildren. rewrite E1. cbn [map]. rewrite (least_first _ _ (length pre + 1 + length post)).
  2: { change (around pre post l :: map (around pre post) ls) with (map (around pre post) (l :: ls)). apply Forall_map, Forall_forall. intros x _. unfold around. cbn [children]. rewrite !app_length. cbn [length]. lia. }
  cbn [nth firstn skipn app].
  assert (EX : forall g : Node -> bool, g b = false -> (forall x, g x = node_eqb l x) -> existsb (fun o => negb (g o)) ls = true) by (intros g Hg _; apply existsb_exists; exists b; rewrite Hg; auto).
  assert (EL : forall f : Node -> bool, (forall x, f (around pre post x) = negb (node_eqb l x)) -> existsb f (map (around pre post) ls) = true) by (intros f Hf; apply existsb_exists; exists (around pre post b); split; [apply in_map, Ib|]; rewrite Hf, Nb; reflexivity).
  assert (EQ : forall (f : Node -> bool), (forall x, f (around pre post x) = false) -> existsb f (map (around pre post) ls) = false) by (intros f Hf; apply existsb_false_iff; intros o Io; apply in_map_iff in Io; destruct Io as [x [<- _]]; apply Hf).
  assert (RF : forall g, negb (node_eqb g g) = false) by (intros g; rewrite (proj2 (node_eqb_iff g g) eq_refl); reflexivity).
  destruct pre as [|g [|? ?]]; [| |cbn in L1; lia]; (destruct post as [|h [|? ?]]; [| |cbn in L2; lia]).
  - cbn in L3. lia.
  - (* common last term *) change (children (around [] [h] l)) with [l; h]. cbn [common_outer length Nat.ltb Nat.leb andb negb Nat.sub nth].
    rewrite inner_formula by (left; lia). cbn [orb]. rewrite (EL (fun o => negb (node_eqb l (nth 0 (children o) NNothing)))) by reflexivity. rewrite (EQ (fun o => negb (node_eqb h (nth (1 + length (children o) - 2) (children o) NNothing)))) by (intros x; apply RF).
    cbn [common_outer length Nat.ltb Nat.leb andb negb Nat.sub nth]. rewrite inner_formula by (right; reflexivity). cbn [orb].
    rewrite (EL (fun o => negb (node_eqb l (nth (0 + length (children o) - 2) (children o) NNothing)))) by reflexivity. reflexivity.
  - (* common first term *) change (children (around [g] [] l)) with [g; l]. cbn [common_outer length Nat.ltb Nat.leb andb negb Nat.sub nth].
    rewrite inner_formula by (left; lia). cbn [orb]. rewrite (EQ (fun o => negb (node_eqb g (nth 0 (children o) NNothing)))) by (intros x; apply RF). rewrite (EL (fun o => negb (node_eqb l (nth (1 + length (children o) - 2) (children o) NNothing)))) by reflexivity.
    cbn [common_outer length Nat.ltb Nat.leb andb negb Nat.sub nth app]. rewrite inner_right. cbn [orb].
    rewrite (EL (fun o => negb (node_eqb l (nth 1 (children o) NNothing)))) by reflexivity. reflexivity.
  - (* both *) change (children (around [g] [h] l)) with [g; l; h]. cbn [common_outer length Nat.ltb Nat.leb andb negb Nat.sub nth].
    rewrite inner_formula by (left; lia). cbn [orb]. rewrite (EQ (fun o => negb (node_eqb g (nth 0 (children o) NNothing)))) by (intros x; apply RF). rewrite (EQ (fun o => negb (node_eqb h (nth (2 + length (children o) - 3) (children o) NNothing)))) by (intros x; apply RF).
    cbn [common_outer length Nat.ltb Nat.leb andb negb Nat.sub nth app]. destruct ls as [|l1 ls]; [destruct Ib|]. cbn [map common_inner andb].
    change (nth 1 (children (around [g] [h] l1)) NNothing) with l1. change (nth (1 + length (children (around [g] [h] l1)) - 3) (children (around [g] [h] l1)) NNothing) with l1.
    assert (BR : (false || negb (false || negb (node_eqb l l1)) && (1 <=? 1) || negb (node_eqb l l1)) = true) by (destruct (node_eqb l l1); reflexivity). rewrite BR, inner_right.
    assert (BL : (false || negb (node_eqb l l1) || existsb (fun o => negb (node_eqb l (nth 1 (children o) NNothing))) (map (around [g] [h]) ls)) = true).
    { destruct (node_eqb l l1) eqn:E; [|reflexivity]. cbn [orb negb]. destruct Ib as [->|Ib]; [congruence|]. apply existsb_exists. exists (around [g] [h] b). split; [apply in_map, Ib|]. cbn. rewrite Nb. reflexivity. }
    rewrite BL. reflexivity.
Qed.
Definition uniq (ls : list Node) (acc : list Node) : list Node := fold_left (fun acc l => if existsb (fun n => node_eqb n l) acc then acc else acc ++ [l]) ls acc.
Lemma uniq_in ls : forall acc x, In x (uniq ls acc) <-> In x acc \/ In x ls.
Proof.
  induction ls as [|l ls IH]; intros acc x; cbn [uniq fold_left]; [cbn; tauto|]. fold (uniq ls (if existsb (fun n => node_eqb n l) acc then acc else acc ++ [l])). rewrite IH. destruct (existsb _ acc) eqn:E.
  - apply existsb_exists in E. destruct E as [y [Iy E]]. apply node_eqb_iff in E. subst y. cbn. split; [tauto|]. intros [A|[<-|A]]; auto.
  - rewrite in_app_iff. cbn. tauto.
Qed.
Lemma uniq_fold pre post ls : forall acc, fold_left (fun a c => appendIfUnique a (rest_node (length pre) (length post) c)) (map (around pre post) ls) (map (fun l => NPattern [l]) acc) = map (fun l => NPattern [l]) (uniq ls acc).
Proof.
  induction ls as [|l ls IH]; intros acc; cbn [map fold_left uniq]; [reflexivity|].
  assert (R : rest_node (length pre) (length post) (around pre post l) = NPattern [l]).
  { unfold rest_node, around. cbn [children]. rewrite !app_length. cbn [length]. rewrite skipn_app, skipn_all, Nat.sub_diag. cbn [skipn app].
    replace (length pre + (1 + length post) - length post - length pre) with 1 by lia. reflexivity. }
  rewrite R. assert (A : appendIfUnique (map (fun l => NPattern [l]) acc) (NPattern [l]) = map (fun l => NPattern [l]) (if existsb (fun n => node_eqb n l) acc then acc else acc ++ [l])).
  { unfold appendIfUnique. assert (E : existsb (fun n => node_eqb n (NPattern [l])) (map (fun l => NPattern [l]) acc) = existsb (fun n => node_eqb n l) acc).
    { clear. induction acc as [|a acc IH]; [reflexivity|]. cbn [map existsb]. rewrite IH. cbn. rewrite andb_true_r. reflexivity. }
    rewrite E. destruct (existsb _ acc); [reflexivity|]. rewrite map_app. reflexivity. }
  rewrite A. apply IH.
Qed.
Lemma choices_in ls ls' : (forall x, In x ls' <-> In x ls) -> choices ls -> choices ls'.
Proof.
  intros E [F [a [b [Ia [Ib N]]]]]. split; [rewrite Forall_forall in *; intros x I; apply F, E, I|]. exists a, b. rewrite !E. auto.
Qed.
Lemma same_width_in ls ls' : (forall x, In x ls' <-> In x ls) -> same_width ls -> same_width ls'.
Proof. intros E H a b Ia Ib. apply H; apply E; assumption. Qed.
Lemma follow_choice seps n ls ls' : (forall x, In x ls' <-> In x ls) -> may_follow seps n (choice ls) -> may_follow seps n (choice ls').
Proof.
  intros E [A [B C]]. split; [exact A|]. split; [intros _ [S0|S0]; discriminate S0|]. intros En L. destruct (C En L) as [C1 C2]. split; [reflexivity|]. intros [l0 [E0 V]]. apply choice_inj in E0. subst l0. apply C2. exists ls. split; [reflexivity|].
  intros SW. apply V, (same_width_in ls ls' E SW).
Qed.
Lemma choice_follow seps n ls : may_follow seps (choice ls) n.
Proof. split; [discriminate|]. split; [intros [S0|S0]; discriminate S0|discriminate]. Qed.
Definition wrap (l : list Node) : list Node := if length l =? 0 then [] else [NPattern l].
Lemma wrap_comp seps pre xs : length pre <= 1 -> Forall2 (elof seps) pre xs -> Forall2 (fun n x => exists f m, compile_f f n seps = Some m /\ optimizeMatcher m = mtc x) (wrap pre) xs.
Proof.
  intros L F. destruct F as [|n x pre xs E F]; [constructor|]. destruct F as [|? ? ? ? ? F]; [|cbn in L; lia]. cbn. constructor; [apply (compile_single seps n x E)|constructor].
Qed.
Lemma around_compiled seps pre post ls : ascii seps -> length pre <= 1 -> length post <= 1 -> 1 <= length pre + length post -> Forall term pre -> Forall term post ->
  choices ls -> same_width ls \/ Forall (fun l => ~ negative_leaf l) ls -> sequence seps (pre ++ [choice ls] ++ post) ->
  exists f m, compile_f f (NPattern [NAnyOf (map (around pre post) ls)]) seps = Some m /\ forall s, ascii s -> right (sem m) (den seps (NAnyOf (map (around pre post) ls))) s.
Proof.
  intros As L1 L2 L3 Tp Tq CH CW Q. set (us := uniq ls []). assert (IU : forall x, In x us <-> In x ls) by (intros x; unfold us; rewrite uniq_in; cbn; tauto).
  set (n' := NPattern (wrap pre ++ [choice us] ++ wrap post)).
  assert (MT : minimizeTreeAnyOf (map (around pre post) ls) = Some n').
  { unfold minimizeTreeAnyOf. assert (P : forallb is_pattern (map (around pre post) ls) = true) by (apply forallb_forall; intros c I; apply in_map_iff in I; destruct I as [l [<- _]]; reflexivity). rewrite P. cbn [negb].
    rewrite (common_around pre post ls L1 L2 L3 (proj2 CH)). assert (Z0 : (length pre =? 0) && (length post =? 0) = false) by (destruct (Nat.eqb_spec (length pre) 0), (Nat.eqb_spec (length post) 0); try reflexivity; lia). rewrite Z0.
    pose proof (uniq_fold pre post ls []) as UF. cbn [map] in UF. rewrite UF. fold us. unfold n'. do 2 f_equal.
    destruct (choices_in ls us IU CH) as [_ [a [b [Ia [Ib N]]]]]. destruct us as [|u1 [|u2 us']]; [destruct Ia| |reflexivity]. exfalso. destruct Ia as [<-|[]]. destruct Ib as [<-|[]]. apply N. reflexivity. }
  assert (TU : term (choice us)). { right. exists us. split; [reflexivity|]. split; [apply (choices_in ls us IU CH)|]. destruct CW as [CW|CW]; [left; apply (same_width_in ls us IU CW)|right]. rewrite Forall_forall in *. intros x I. apply CW, IU, I. }
  assert (QU : sequence seps (pre ++ [choice us] ++ post)).
  { destruct pre as [|g [|? ?]]; [| |cbn in L1; lia]; cbn [app] in *.
    - destruct post as [|h post]; [exact I|]. split; [apply choice_follow|apply Q].
    - destruct Q as [Q1 Q2]. split; [apply (follow_choice seps g ls us IU Q1)|]. destruct post as [|h post]; [exact I|]. split; [apply choice_follow|apply Q2]. }
  destruct (terms_elems seps (pre ++ [choice us] ++ post) As) as [xs FX]; [apply Forall_app; split; [exact Tp|]; constructor; [exact TU|exact Tq]|discriminate|].
  assert (FC : Forall2 (fun n x => exists f m, compile_f f n seps = Some m /\ optimizeMatcher m = mtc x) (wrap pre ++ [choice us] ++ wrap post) xs).
  { apply Forall2_app_inv_l in FX. destruct FX as [xp [xr [F1 [F2 ->]]]]. inversion F2 as [|? xc ? xq Ec F3]; subst. apply Forall2_app; [apply wrap_comp; assumption|]. constructor; [apply (e_comp _ _ _ Ec)|apply wrap_comp; assumption]. }
  assert (Nx : 2 <= length xs) by (assert (FLen : length (pre ++ [choice us] ++ post) = length xs) by (clear - FX; induction FX; cbn [length]; congruence); rewrite <- FLen, !app_length; cbn [length]; lia).
  destruct (seq_right xs (elems_good _ _ _ FX) (elems_chain _ _ _ FX QU)) as [m [Cm [R [_ O]]]]; [destruct xs; [cbn in Nx; lia|discriminate]|].
  assert (CP : exists f, compile_f f n' seps = Some m).
  { assert (MC : Forall (fun p => exists f m0, compile_f f (fst p) seps = Some m0 /\ optimizeMatcher m0 = mtc (snd p)) (combine (wrap pre ++ [choice us] ++ wrap post) xs)).
    { clear - FC. induction FC as [|n x ns xs E F IH]; constructor; [exact E|exact IH]. }
    destruct (map_opt_fuel fst (fun p => mtc (snd p)) seps _ MC) as [f Hf].
    assert (E1 : map (@fst Node el) (combine (wrap pre ++ [choice us] ++ wrap post) xs) = wrap pre ++ [choice us] ++ wrap post) by (clear - FC; induction FC; cbn; congruence).
    assert (E2 : map (fun p : Node * el => mtc (snd p)) (combine (wrap pre ++ [choice us] ++ wrap post) xs) = map mtc xs) by (clear - FC; induction FC; cbn; congruence).
    rewrite E1, E2 in Hf. exists (S f). unfold n'. cbn [compile_f]. destruct (wrap pre ++ [choice us] ++ wrap post) eqn:EW; [destruct (wrap pre); discriminate EW|]. rewrite Hf. exact Cm. }
  destruct CP as [f Cf]. assert (C1 : compile_f (S f) (NAnyOf (map (around pre post) ls)) seps = Some m) by (cbn [compile_f]; rewrite MT; exact Cf).
  pose proof (compile_wrap seps _ _ _ C1 ltac:(rewrite O; exact O)) as C2. rewrite O in C2. exists (S (S f)), m. split; [exact C2|].
  intros s Hs. apply (right_ext _ (catL (map lg xs))).
  - rewrite (elems_lang _ _ _ FX s Hs). rewrite <- (factored_den _ _ seps s MT). unfold n'. rewrite den_pattern, !cat_app.
    assert (W : forall l t, length l <= 1 -> (cat seps l t <-> cat seps (wrap l) t)). { intros l t Ll. destruct l as [|g [|? ?]]; [reflexivity| |cbn in Ll; lia]. unfold wrap. cbn [length Nat.eqb]. rewrite !cat_one, den_pattern, cat_one. reflexivity. }
    split; intros [u [v [-> [A B]]]]; exists u, v; (split; [reflexivity|]; split; [apply (W pre u L1), A|]); apply cat_app; apply cat_app in B; destruct B as [x [y [-> [B1 B2]]]]; exists x, y; (split; [reflexivity|]; split; [exact B1|]); apply (W post y L2), B2.
  - apply R; [|exact Hs|right; intros x E; rewrite E in Nx; cbn in Nx; lia]. intros [p [mid [q [Em [Nm Fm]]]]]. destruct (elems_between seps _ xs FX mid p q Em Nm Fm) as [a [md [b [E [La [Lb [Ne W]]]]]]].
    destruct pre as [|g [|? ?]]; [| |cbn in L1; lia]; cbn [app] in E; injection E as <- E; [discriminate La|]. destruct md as [|md0 md]; [contradiction|]. cbn in E. injection E as <- E. inversion W as [|? ? W0 _]; subst. destruct W0 as [W0|[W0 _]]; discriminate W0.
Qed.
