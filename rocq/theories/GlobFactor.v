(** * Factoring alternatives keeps the meaning, and compiling always ends. *)
From Coq Require Import String.
From Coq Require Import ZArith Arith List Bool Lia.
From Verif Require Import Utf8 GoStr GlobLex GlobMatch GlobCompile GlobSpec.
Import ListNotations.
Open Scope nat_scope.

(** Induction over trees with nested lists. *)
Lemma Node_ind' (P : Node -> Prop) : P NNothing -> (forall ns, Forall P ns -> P (NPattern ns)) -> (forall b c, P (NList b c)) -> (forall b l h, P (NRange b l h)) ->
  (forall t, P (NText t)) -> P NAny -> P NSuper -> P NSingle -> (forall ns, Forall P ns -> P (NAnyOf ns)) -> forall n, P n.
Proof.
  intros H1 H2 H3 H4 H5 H6 H7 H8 H9. fix IH 1. intros [|ns|b c|b l h|t| | | |ns]; [exact H1| |apply H3|apply H4|apply H5|exact H6|exact H7|exact H8|].
  - apply H2. induction ns as [|n ns IHns]; constructor; [apply IH|exact IHns].
  - apply H9. induction ns as [|n ns IHns]; constructor; [apply IH|exact IHns].
Qed.
Fixpoint nodes_eqb (xs ys : list Node) : bool := match xs, ys with [], [] => true | x :: xs', y :: ys' => node_eqb x y && nodes_eqb xs' ys' | _, _ => false end.
Lemma nodes_eqb_fix xs : forall ys, (fix all (xs ys : list Node) {struct xs} : bool :=
    match xs, ys with [], [] => true | x :: xs', y :: ys' => node_eqb x y && all xs' ys' | _, _ => false end) xs ys = nodes_eqb xs ys.
Proof. induction xs as [|x xs IH]; intros [|y ys]; reflexivity. Qed.
Lemma nodes_eqb_iff xs : Forall (fun x => forall y, node_eqb x y = true <-> x = y) xs -> forall ys, nodes_eqb xs ys = true <-> xs = ys.
Proof.
  induction 1 as [|x xs Hx _ IH]; intros [|y ys]; cbn [nodes_eqb]; try (split; [reflexivity || discriminate|reflexivity || discriminate]).
  rewrite andb_true_iff, Hx, IH. split; [intros [-> ->]; reflexivity|intros E; injection E; auto].
Qed.
Lemma node_eqb_iff a : forall b, node_eqb a b = true <-> a = b.
Proof.
  induction a as [|ns IH|b0 c|b0 l h|t| | | |ns IH] using Node_ind'; intros b; destruct b; cbn [node_eqb]; try (split; [reflexivity || discriminate|reflexivity || discriminate]).
  - rewrite nodes_eqb_fix, (nodes_eqb_iff ns IH). split; congruence.
  - rewrite andb_true_iff, eqb_true_iff, eqs_iff. split; [intros [-> ->]; reflexivity|intros E; injection E; auto].
  - rewrite !andb_true_iff, eqb_true_iff, !Z.eqb_eq. split; [intros [[-> ->] ->]; reflexivity|intros E; injection E; auto].
  - rewrite eqs_iff. split; congruence.
  - rewrite nodes_eqb_fix, (nodes_eqb_iff ns IH). split; congruence.
Qed.
(** ** The meaning of sequences and alternatives *)
Lemma den_pattern seps ns : forall s, den seps (NPattern ns) s <-> cat seps ns s.
Proof.
  induction ns as [|n ns IH]; intros s; [cbn; tauto|]. cbn [cat]. split.
  - intros [u [v [E [A B]]]]. exists u, v. split; [exact E|]. split; [exact A|]. apply IH. exact B.
  - intros [u [v [E [A B]]]]. exists u, v. split; [exact E|]. split; [exact A|]. apply IH in B. exact B.
Qed.
Lemma den_anyof seps ns s : den seps (NAnyOf ns) s <-> exists n, In n ns /\ den seps n s.
Proof.
  assert (H : den seps (NAnyOf ns) s <-> alt seps ns s).
  { induction ns as [|n ns IH]; [cbn; tauto|]. cbn [alt]. rewrite <- IH. cbn. tauto. }
  rewrite H. clear H. induction ns as [|n ns IH]; cbn [alt In].
  - split; [intros []|intros [n [[] _]]].
  - rewrite IH. split.
    + intros [D|[m [I D]]]; [exists n; auto|exists m; auto].
    + intros [m [[<-|I] D]]; [auto|]. right. eauto.
Qed.
Lemma cat_app seps a b : forall s, cat seps (a ++ b) s <-> exists u v, s = u ++ v /\ cat seps a u /\ cat seps b v.
Proof.
  induction a as [|n a IH]; intros s; cbn [app cat].
  - split; [intros H; exists [], s; auto|intros [u [v [-> [-> H]]]]; exact H].
  - split.
    + intros [u [v [-> [D H]]]]. apply IH in H. destruct H as [x [y [-> [A B]]]]. exists (u ++ x), y. rewrite app_assoc. split; [reflexivity|]. split; [|exact B]. exists u, x. auto.
    + intros [u [v [-> [[x [y [-> [D A]]]] B]]]]. exists x, (y ++ v). rewrite app_assoc. split; [reflexivity|]. split; [exact D|]. apply IH. exists y, v. auto.
Qed.
Lemma cat_one seps n s : cat seps [n] s <-> den seps n s.
Proof. cbn [cat]. split; [intros [u [v [-> [D ->]]]]; rewrite app_nil_r; exact D|intros D; exists s, []; rewrite app_nil_r; auto]. Qed.

(** ** Common children *)
Lemma nth_skipn_cons {A} (l : list A) i d : i < length l -> skipn i l = nth i l d :: skipn (S i) l.
Proof. revert i. induction l as [|x l IH]; intros i L; [cbn in L; lia|]. destruct i as [|i]; [reflexivity|]. cbn [nth]. change (skipn (S i) (x :: l)) with (skipn i l). change (skipn (S (S i)) (x :: l)) with (skipn (S i) l). apply IH. cbn in L. lia. Qed.
Lemma firstn_snoc {A} (l : list A) i d : i < length l -> firstn (S i) l = firstn i l ++ [nth i l d].
Proof. revert i. induction l as [|x l IH]; intros i L; [cbn in L; lia|]. destruct i as [|i]; [reflexivity|]. cbn [firstn nth app]. f_equal. apply IH. cbn in L. lia. Qed.
(** The last k elements. *)
Definition lastn {A} (k : nat) (l : list A) : list A := skipn (length l - k) l.
Lemma common_inner_spec others tl tr i j n : forall bl br bl' br', common_inner others tl tr i j n bl br = (bl', br') ->
  (bl' = false -> bl = false /\ Forall (fun o => nth i (children o) NNothing = tl) others)
  /\ (br' = false -> br = false /\ Forall (fun o => nth (j + length (children o) - n) (children o) NNothing = tr) others)
  /\ (bl' = false -> br' = false -> others = [] \/ i < j).
Proof.
  induction others as [|o others IH]; intros bl br bl' br'; cbn [common_inner].
  - intros E. injection E as <- <-. repeat split; auto.
  - destruct (bl && br) eqn:BB.
    { intros E. injection E as <- <-. apply andb_true_iff in BB. destruct BB as [-> ->]. repeat split; discriminate. }
    intros E. apply IH in E. destruct E as [E1 [E2 E3]]. split; [|split].
    + intros F. specialize (E1 F). destruct E1 as [E1 E1']. apply orb_false_iff in E1. destruct E1 as [-> E1]. split; [reflexivity|]. constructor; [|exact E1'].
      apply negb_false_iff, node_eqb_iff in E1. symmetry. exact E1.
    + intros F. specialize (E2 F). destruct E2 as [E2 E2']. apply orb_false_iff in E2. destruct E2 as [E2 E2'']. apply orb_false_iff in E2. destruct E2 as [-> _]. split; [reflexivity|].
      constructor; [|exact E2']. apply negb_false_iff, node_eqb_iff in E2''. symmetry. exact E2''.
    + intros F G. right. specialize (E1 F). destruct E1 as [E1 _]. specialize (E2 G). destruct E2 as [E2 _]. rewrite E1 in E2. apply orb_false_iff in E2. destruct E2 as [E2 _]. apply orb_false_iff in E2.
      destruct E2 as [_ E2]. cbn [negb andb] in E2. apply Nat.leb_gt in E2. exact E2.
Qed.
(** [cl] is a prefix of the list and [cr] a suffix. *)
Definition fits (cl cr l : list Node) : Prop := firstn (length cl) l = cl /\ lastn (length cr) l = cr.
Lemma common_outer_spec others tree : others <> [] -> Forall (fun o => length tree <= length (children o)) others ->
  forall fuel i bl br total cl cr,
  total = length cl + length cr -> total <= length tree -> i <= length tree ->
  (bl = false -> length cl = i) -> (br = false -> length cr = i) ->
  Forall (fun l => fits cl cr l) (tree :: map children others) ->
  let '(cl', cr') := common_outer fuel others tree i bl br total cl cr in
  length cl' + length cr' <= length tree /\ Forall (fun l => fits cl' cr' l) (tree :: map children others).
Proof.
  intros NE Len. induction fuel as [|f IH]; intros i bl br total cl cr ET LT Li Hl Hr FT; cbn [common_outer].
  { split; [lia|exact FT]. }
  destruct ((total <? length tree) && (i <? length tree) && negb (bl && br)) eqn:G; [|split; [lia|exact FT]].
  apply andb_true_iff in G. destruct G as [G _]. apply andb_true_iff in G. destruct G as [G1 G2]. apply Nat.ltb_lt in G1. apply Nat.ltb_lt in G2.
  destruct (common_inner others (nth i tree NNothing) (nth (length tree - 1 - i) tree NNothing) i (length tree - 1 - i) (length tree) bl br) as [bl' br'] eqn:CI.
  destruct (common_inner_spec _ _ _ _ _ _ _ _ _ _ CI) as [C1 [C2 C3]].
  (* the two updates *)
  assert (U : forall l, In l (tree :: map children others) -> length tree <= length l).
  { intros l [<-|I]; [lia|]. apply in_map_iff in I. destruct I as [o [<- I]]. rewrite Forall_forall in Len. apply Len, I. }
  assert (UL : bl' = false -> forall l, In l (tree :: map children others) -> firstn (length cl) l = cl -> firstn (S (length cl)) l = cl ++ [nth i tree NNothing]).
  { intros F l I P. destruct (C1 F) as [B0 B1]. specialize (Hl B0). rewrite Hl in *. rewrite (firstn_snoc l i NNothing) by (specialize (U l I); lia). rewrite P. f_equal. f_equal.
    destruct I as [<-|I]; [reflexivity|]. apply in_map_iff in I. destruct I as [o [<- I]]. rewrite Forall_forall in B1. apply B1, I. }
  assert (UR : br' = false -> forall l, In l (tree :: map children others) -> lastn (length cr) l = cr -> lastn (S (length cr)) l = nth (length tree - 1 - i) tree NNothing :: cr).
  { intros F l I P. destruct (C2 F) as [B0 B1]. specialize (Hr B0). unfold lastn in *. rewrite Hr in *. pose proof (U l I).
    rewrite (nth_skipn_cons l (length l - S i) NNothing) by lia. replace (S (length l - S i)) with (length l - i) by lia. rewrite P. f_equal.
    destruct I as [<-|I]; [f_equal; lia|]. apply in_map_iff in I. destruct I as [o [<- I]]. rewrite Forall_forall in B1. rewrite <- (B1 o I). f_equal. lia. }
  rewrite Forall_forall in FT.
  destruct bl', br'; (match goal with |- context [common_outer f others tree (S i) ?a ?b ?t ?x ?y] => apply (IH (S i) a b t x y) end);
    try (rewrite ?app_length; cbn [length]; lia); try discriminate; try (intros _; rewrite ?app_length; cbn [length]);
    try (destruct (C1 eq_refl) as [B0 _]; specialize (Hl B0); lia); try (destruct (C2 eq_refl) as [B0 _]; specialize (Hr B0); lia);
    try (apply Forall_forall; intros l I; destruct (FT l I) as [P Q]; split; rewrite ?app_length; cbn [length]; rewrite ?Nat.add_1_r; auto).
  (* both extended: they do not overlap *)

  destruct (C3 eq_refl eq_refl) as [?|O]; [contradiction|].
  destruct (C1 eq_refl) as [B0 _]. destruct (C2 eq_refl) as [B1 _]. specialize (Hl B0). specialize (Hr B1). lia.
Qed.
Lemma least_spec nodes : forall i found, match least nodes i found with
  | None => found = None /\ nodes = []
  | Some k => (exists m, found = Some (k, m) /\ Forall (fun n => m <= length (children n)) nodes)
              \/ (exists j n, k = i + j /\ nth_error nodes j = Some n /\ Forall (fun o => length (children n) <= length (children o)) nodes
                  /\ match found with Some (_, m) => length (children n) < m | None => True end)
  end.
Proof.
  induction nodes as [|n t IH]; intros i found; cbn [least].
  - destruct found as [[k m]|]; [left; exists m; auto|auto].
  - destruct found as [[k0 m0]|].
    + destruct (Nat.ltb_spec (length (children n)) m0) as [L|L].
      * specialize (IH (S i) (Some (i, length (children n)))). destruct (least t (S i) _) as [k|]; [|destruct IH; discriminate].
        destruct IH as [[m [E F]]|[j [n' [-> [E [F Q]]]]]].
        -- injection E as <- <-. right. exists 0, n. split; [lia|]. split; [reflexivity|]. split; [|exact L]. constructor; [lia|exact F].
        -- right. exists (S j), n'. split; [lia|]. split; [exact E|]. split; [|lia]. constructor; [lia|exact F].
      * specialize (IH (S i) (Some (k0, m0))). destruct (least t (S i) _) as [k|]; [|destruct IH; discriminate].
        destruct IH as [[m [E F]]|[j [n' [-> [E [F Q]]]]]].
        -- injection E as <- <-. left. exists m0. split; [reflexivity|]. constructor; [lia|exact F].
        -- right. exists (S j), n'. split; [lia|]. split; [exact E|]. split; [|exact Q]. constructor; [lia|exact F].
    + specialize (IH (S i) (Some (i, length (children n)))). destruct (least t (S i) _) as [k|]; [|destruct IH; discriminate].
      destruct IH as [[m [E F]]|[j [n' [-> [E [F Q]]]]]].
      * injection E as <- <-. right. exists 0, n. split; [lia|]. split; [reflexivity|]. split; [|exact I]. constructor; [lia|exact F].
      * right. exists (S j), n'. split; [lia|]. split; [exact E|]. split; [|exact I]. constructor; [lia|exact F].
Qed.
Lemma common_spec nodes cl cr : commonChildren nodes = (cl, cr) -> cl <> [] \/ cr <> [] ->
  2 <= length nodes /\ Forall (fun n => length cl + length cr <= length (children n) /\ fits cl cr (children n)) nodes.
Proof.
  unfold commonChildren. destruct (Nat.leb_spec (length nodes) 1) as [L|L]; [intros E; injection E as <- <-; intros [[]|[]]; reflexivity|].
  pose proof (least_spec nodes 0 None) as LS. destruct (least nodes 0 None) as [k|]; [|intros E; injection E as <- <-; intros [[]|[]]; reflexivity].
  destruct LS as [[m [E _]]|[j [n [-> [NE [F _]]]]]]; [discriminate|]. cbn [plus]. rewrite (nth_error_nth _ _ _ NE).
  destruct (nth_error_split _ _ NE) as [a [b [-> La]]]. subst j.
  rewrite firstn_app, firstn_all, Nat.sub_diag, firstn_O, app_nil_r. rewrite skipn_app. replace (skipn (S (length a)) a) with (@nil Node) by (symmetry; apply skipn_all2; lia).
  replace (S (length a) - length a) with 1 by lia. cbn [skipn app].
  pose proof (common_outer_spec (a ++ b) (children n)) as CO.
  assert (N0 : a ++ b <> []). { rewrite app_length in L. cbn in L. intros E. apply app_eq_nil in E. destruct E as [-> ->]. cbn in L. lia. }
  assert (Fo : Forall (fun o => length (children n) <= length (children o)) (a ++ b)).
  { rewrite Forall_forall in *. intros o I. apply F. rewrite in_app_iff in *. destruct I; [left|right; right]; assumption. }
  specialize (CO N0 Fo (S (length (children n))) 0 false false 0 [] [] eq_refl (Nat.le_0_l _) (Nat.le_0_l _) (fun _ => eq_refl) (fun _ => eq_refl)).
  destruct (common_outer _ _ _ _ _ _ _ _ _) as [cl' cr']. intros E. injection E as <- <-. intros _. split; [lia|].
  destruct CO as [C1 C2].
  { apply Forall_forall. intros l _. split; [reflexivity|]. unfold lastn. cbn [length]. rewrite Nat.sub_0_r. apply skipn_all. }
  rewrite Forall_forall in *. intros o I. split.
  - specialize (F o I). lia.
  - apply C2. rewrite in_app_iff in I. destruct I as [I|[<-|I]]; [right|left; reflexivity|right]; apply in_map; apply in_or_app; auto.
Qed.
Lemma fits_split cl cr l : length cl + length cr <= length l -> fits cl cr l -> l = cl ++ firstn (length l - length cr - length cl) (skipn (length cl) l) ++ cr.
Proof.
  intros L [A B]. unfold lastn in B.
  assert (P : forall {X} a b (x : list X), skipn b (skipn a x) = skipn (a + b) x).
  { intros X a. induction a as [|a IH]; intros b x; [reflexivity|]. destruct x; [rewrite !skipn_nil; reflexivity|apply IH]. }
  transitivity (firstn (length cl) l ++ skipn (length cl) l); [symmetry; apply firstn_skipn|]. rewrite A. f_equal.
  transitivity (firstn (length l - length cr - length cl) (skipn (length cl) l) ++ skipn (length l - length cr - length cl) (skipn (length cl) l)); [symmetry; apply firstn_skipn|].
  f_equal. rewrite P. replace (length cl + (length l - length cr - length cl)) with (length l - length cr) by lia. exact B.
Qed.
(** ** The factored tree *)
Lemma append_unique_in acc v n : In n (appendIfUnique acc v) <-> In n acc \/ n = v.
Proof.
  unfold appendIfUnique. destruct (existsb (fun n => node_eqb n v) acc) eqn:E.
  - apply existsb_exists in E. destruct E as [x [I E]]. apply node_eqb_iff in E. subst x. split; [auto|]. intros [H| ->]; assumption.
  - rewrite in_app_iff. cbn. intuition.
Qed.
Lemma fold_unique_in (g : Node -> Node) ch : forall acc n, In n (fold_left (fun acc c => appendIfUnique acc (g c)) ch acc) <-> In n acc \/ exists c, In c ch /\ n = g c.
Proof.
  induction ch as [|c ch IH]; intros acc n; cbn [fold_left].
  - split; [auto|]. intros [H|[c [[] _]]]. exact H.
  - rewrite IH, append_unique_in. cbn [In]. split.
    + intros [[H|H]|[x [I H]]]; [auto|right; exists c; auto|right; exists x; auto].
    + intros [H|[x [[<-|I] H]]]; [auto|auto|]. right. exists x. auto.
Qed.
Lemma den_rest seps l r c s : den seps (rest_node l r c) s <-> cat seps (firstn (length (children c) - r - l) (skipn l (children c))) s.
Proof. unfold rest_node. destruct (firstn _ _) as [|n ns] eqn:E; [cbn; tauto|]. rewrite den_pattern. tauto. Qed.
Lemma factored_den ch n' seps s : minimizeTreeAnyOf ch = Some n' -> (den seps n' s <-> den seps (NAnyOf ch) s).
Proof.
  unfold minimizeTreeAnyOf. destruct (forallb is_pattern ch) eqn:FP; [|discriminate]. cbn [negb]. destruct (commonChildren ch) as [cl cr] eqn:CC.
  destruct ((length cl =? 0) && (length cr =? 0)) eqn:Z0; [discriminate|].
  assert (NZ : cl <> [] \/ cr <> []). { destruct cl; [right; intros ->; discriminate|left; discriminate]. }
  destruct (common_spec ch cl cr CC NZ) as [L2 FT]. clear NZ Z0. set (g := rest_node (length cl) (length cr)).
  set (rests := fold_left (fun acc c => appendIfUnique acc (g c)) ch []). intros E. injection E as <-.
  assert (RI : forall n, In n rests <-> exists c, In c ch /\ n = g c). { intros n. unfold rests. rewrite fold_unique_in. cbn. intuition. }
  (* the middle *)
  assert (M : forall x, cat seps (match rests with [] => [] | [NNothing] => [] | [n] => [n] | _ => [NAnyOf rests] end) x <-> exists c, In c ch /\ den seps (g c) x).
  { intros x. assert (A : (exists n, In n rests /\ den seps n x) <-> exists c, In c ch /\ den seps (g c) x).
    { split; [intros [n [I D]]; apply RI in I; destruct I as [c [I ->]]; eauto|intros [c [I D]]; exists (g c); split; [apply RI; eauto|exact D]]. }
    rewrite <- A. clear A. destruct rests as [|n0 rs] eqn:ER.
    - exfalso. destruct ch as [|c ch]; [cbn in L2; lia|]. assert (I : In (g c) []) by (apply RI; exists c; split; [left; reflexivity|reflexivity]). destruct I.
    - destruct rs as [|n1 rs].
      + assert (T : cat seps [n0] x <-> exists n, In n [n0] /\ den seps n x). { rewrite cat_one. split; [intros D; exists n0; split; [left; reflexivity|exact D]|intros [n [[<-|[]] D]]; exact D]. }
        destruct n0; try exact T. cbn [cat]. split; [intros ->; exists NNothing; cbn; auto|intros [n [[<-|[]] D]]; exact D].
      + assert (T : cat seps [NAnyOf (n0 :: n1 :: rs)] x <-> exists n, In n (n0 :: n1 :: rs) /\ den seps n x) by (rewrite cat_one; apply den_anyof).
        destruct n0; exact T. }
  (* optional ends *)
  assert (O : forall c x, cat seps (if length c =? 0 then [] else [NPattern c]) x <-> cat seps c x).
  { intros c x. destruct c as [|n c]; [cbn; tauto|]. cbn [length Nat.eqb]. rewrite cat_one. apply den_pattern. }
  rewrite den_pattern, !cat_app, den_anyof.
  assert (Sh : forall c, In c ch -> exists ns, c = NPattern ns /\ children c = cl ++ firstn (length (children c) - length cr - length cl) (skipn (length cl) (children c)) ++ cr).
  { intros c I. rewrite forallb_forall in FP. specialize (FP c I). destruct c as [|ns| | | | | | |]; try discriminate. exists ns. split; [reflexivity|].
    rewrite Forall_forall in FT. destruct (FT _ I) as [F1 F2]. apply fits_split; assumption. }
  split.
  - intros [u [v [-> [Hu Hv]]]]. apply cat_app in Hv. destruct Hv as [x [y [-> [Hx Hy]]]]. apply (proj1 (O _ _)) in Hu. apply (proj1 (O _ _)) in Hy. apply (proj1 (M _)) in Hx. destruct Hx as [c [I D]]. exists c. split; [exact I|].
    destruct (Sh c I) as [ns [-> E]]. rewrite den_pattern. cbn [children] in E. rewrite E. apply cat_app. exists u, (x ++ y). split; [reflexivity|]. split; [exact Hu|].
    apply cat_app. exists x, y. split; [reflexivity|]. split; [|exact Hy]. apply (proj1 (den_rest _ _ _ _ _)) in D. exact D.
  - intros [c [I D]]. destruct (Sh c I) as [ns [-> E]]. cbn [children] in E. rewrite den_pattern, E in D. apply cat_app in D. destruct D as [u [w [-> [Hu Hw]]]]. apply cat_app in Hw. destruct Hw as [x [y [-> [Hx Hy]]]].
    exists u, (x ++ y). split; [reflexivity|]. split; [apply (proj2 (O _ _)), Hu|]. apply cat_app. exists x, y. split; [reflexivity|]. split; [|apply (proj2 (O _ _)), Hy]. apply (proj2 (M _)). exists (NPattern ns). split; [exact I|]. apply (proj2 (den_rest _ _ _ _ _)). exact Hx.
Qed.

(** ** Compiling ends *)
Definition sum (f : Node -> nat) (ns : list Node) : nat := fold_right (fun n a => f n + a) 0 ns.
(** A weight that goes down at every call. *)
Fixpoint weight (n : Node) : nat :=
  let fix all (ns : list Node) : nat := match ns with [] => 0 | n :: t => weight n + all t end in
  match n with NPattern ns => S (all ns) | NAnyOf ns => S (3 * all ns) | _ => 1 end.
Lemma weight_all ns : (fix all (ns : list Node) : nat := match ns with [] => 0 | n :: t => weight n + all t end) ns = sum weight ns.
Proof. induction ns as [|n ns IH]; [reflexivity|]. unfold sum in *. cbn [fold_right]. rewrite <- IH. reflexivity. Qed.
Lemma weight_pattern ns : weight (NPattern ns) = S (sum weight ns).
Proof. rewrite <- weight_all. reflexivity. Qed.
Lemma weight_anyof ns : weight (NAnyOf ns) = S (3 * sum weight ns).
Proof. rewrite <- weight_all. reflexivity. Qed.
Lemma weight_pos n : 1 <= weight n.
Proof. destruct n; cbn [weight]; lia. Qed.
Lemma sum_app f a b : sum f (a ++ b) = sum f a + sum f b.
Proof. unfold sum. induction a as [|x a IH]; cbn [fold_right app]; [reflexivity|]. lia. Qed.
Lemma sum_in n ns : In n ns -> weight n <= sum weight ns.
Proof. unfold sum. induction ns as [|x ns IH]; [intros []|]. cbn [fold_right]. intros [->|I]; [lia|]. specialize (IH I). lia. Qed.
Lemma sum_len ns : length ns <= sum weight ns.
Proof. unfold sum. induction ns as [|x ns IH]; cbn [fold_right length]; [lia|]. pose proof (weight_pos x). lia. Qed.
Lemma append_unique_weight acc v : sum weight (appendIfUnique acc v) <= sum weight acc + weight v.
Proof. unfold appendIfUnique. destruct (existsb _ _); [lia|]. rewrite sum_app. unfold sum. cbn [fold_right]. lia. Qed.
Lemma fold_unique_weight (g : Node -> Node) ch : forall acc, sum weight (fold_left (fun acc c => appendIfUnique acc (g c)) ch acc) <= sum weight acc + sum (fun c => weight (g c)) ch.
Proof.
  induction ch as [|c ch IH]; intros acc; cbn [fold_left]; [unfold sum; cbn; lia|].
  pose proof (IH (appendIfUnique acc (g c))). pose proof (append_unique_weight acc (g c)).
  change (sum (fun c0 => weight (g c0)) (c :: ch)) with (weight (g c) + sum (fun c0 => weight (g c0)) ch). lia.
Qed.
Lemma sum_split (ch : list Node) (f g : Node -> nat) k : (forall c, In c ch -> f c + k <= g c) -> sum f ch + length ch * k <= sum g ch.
Proof.
  unfold sum. induction ch as [|c ch IH]; intros H; [cbn; lia|]. cbn [fold_right length]. pose proof (H c (or_introl eq_refl)).
  assert (forall x, In x ch -> f x + k <= g x) by (intros x I; apply H; right; exact I). specialize (IH H1). lia.
Qed.
Lemma factored_weight ch n' : minimizeTreeAnyOf ch = Some n' -> weight n' < weight (NAnyOf ch).
Proof.
  unfold minimizeTreeAnyOf. destruct (forallb is_pattern ch) eqn:FP; [|discriminate]. cbn [negb]. destruct (commonChildren ch) as [cl cr] eqn:CC.
  destruct ((length cl =? 0) && (length cr =? 0)) eqn:Z0; [discriminate|].
  assert (NZ : cl <> [] \/ cr <> []). { destruct cl; [right; intros ->; discriminate|left; discriminate]. }
  destruct (common_spec ch cl cr CC NZ) as [L2 FT]. set (g := rest_node (length cl) (length cr)).
  set (rests := fold_left (fun acc c => appendIfUnique acc (g c)) ch []). intros E. injection E as <-.
  assert (C1 : 1 <= sum weight cl + sum weight cr).
  { pose proof (sum_len cl). pose proof (sum_len cr). destruct NZ as [N|N]; [destruct cl|destruct cr]; try (contradiction N; reflexivity); cbn [length] in *; lia. }
  assert (W : forall c, In c ch -> weight (g c) + (sum weight cl + sum weight cr) <= weight c).
  { intros c I. rewrite forallb_forall in FP. specialize (FP c I). destruct c as [|ns| | | | | | |]; try discriminate.
    rewrite Forall_forall in FT. destruct (FT _ I) as [F1 F2]. cbn [children] in F1, F2. pose proof (fits_split _ _ _ F1 F2) as E. unfold g, rest_node. cbn [children].
    set (mid := firstn (length ns - length cr - length cl) (skipn (length cl) ns)) in *. clearbody mid. rewrite weight_pattern, E, !sum_app.
    destruct mid as [|m mid]; [cbn; lia|]. rewrite weight_pattern. lia. }
  pose proof (sum_split ch (fun c => weight (g c)) weight _ W) as SP.
  pose proof (fold_unique_weight g ch []) as FU. fold rests in FU. change (sum weight []) with 0 in FU.
  assert (M : sum weight (match rests with [] => [] | [NNothing] => [] | [n] => [n] | _ => [NAnyOf rests] end) <= S (3 * sum weight rests)).
  { clear. destruct rests as [|n0 [|n1 rs]]; [cbn; lia| |].
    - destruct n0; unfold sum; cbn [fold_right]; lia.
    - assert (T : sum weight [NAnyOf (n0 :: n1 :: rs)] <= S (3 * sum weight (n0 :: n1 :: rs))) by (unfold sum at 1; cbn [fold_right]; rewrite weight_anyof; lia). destruct n0; exact T. }
  assert (O : forall c, sum weight (if length c =? 0 then [] else [NPattern c]) <= S (sum weight c)).
  { intros c. destruct c as [|n c]; [cbn; lia|]. cbn [length Nat.eqb]. unfold sum at 1. cbn [fold_right]. rewrite weight_pattern. lia. }
  rewrite weight_pattern, !sum_app, weight_anyof. pose proof (O cl). pose proof (O cr). nia.
Qed.
Lemma map_opt_some {A B} (f : A -> option B) l : (forall x, In x l -> exists y, f x = Some y) -> exists ys, map_opt f l = Some ys /\ length ys = length l.
Proof.
  induction l as [|x l IH]; intros H; [exists []; auto|]. cbn [map_opt]. destruct (H x (or_introl eq_refl)) as [y ->].
  destruct IH as [ys [-> E]]; [intros z I; apply H; right; exact I|]. exists (y :: ys). split; [reflexivity|]. cbn [length]. congruence.
Qed.
Lemma map_opt_ext {A B} (f g : A -> option B) l ys : (forall x y, In x l -> f x = Some y -> g x = Some y) -> map_opt f l = Some ys -> map_opt g l = Some ys.
Proof.
  revert ys. induction l as [|x l IH]; intros ys H; cbn [map_opt]; [auto|]. destruct (f x) as [y|] eqn:E; [|discriminate]. rewrite (H x y (or_introl eq_refl) E).
  destruct (map_opt f l) as [zs|]; [|discriminate]. rewrite (IH zs (fun a b I => H a b (or_intror I)) eq_refl). auto.
Qed.
Lemma minimize_nonempty fuel : forall ms, ms <> [] -> minimize_f fuel ms <> [].
Proof.
  induction fuel as [|f IH]; intros ms H; cbn [minimize_f]; [exact H|]. destruct (fold_left _ _ _) as [[[d l] r]|]; [|exact H].
  assert (N : firstn l ms ++ d :: skipn r ms <> []) by (destruct (firstn l ms); discriminate). destruct (_ =? _); [exact N|apply IH, N].
Qed.
Lemma longest_spec ms : forall i mx found k v, longest ms i mx found = Some (k, v) -> found = Some (k, v) \/ exists j, k = i + j /\ nth_error ms j = Some v.
Proof.
  induction ms as [|m ms IH]; intros i mx found k v; cbn [longest]; [auto|]. destruct (_ && _).
  - intros H. apply IH in H. destruct H as [H|[j [-> H]]]; [|right; exists (S j); split; [lia|exact H]]. injection H as <- <-. right. exists 0. split; [lia|reflexivity].
  - intros H. apply IH in H. destruct H as [H|[j [-> H]]]; [auto|]. right. exists (S j). split; [lia|exact H].
Qed.
Lemma compileMatchers_some fuel : forall ms, ms <> [] -> length ms <= fuel -> exists m, compileMatchers_f fuel ms = Some m.
Proof.
  induction fuel as [|f IH]; intros ms N L; [destruct ms; [contradiction|cbn in L; lia]|]. cbn [compileMatchers_f]. destruct ms as [|m0 [|m1 rest]]; [contradiction|eauto|].
  destruct (glueMatchers _); [eauto|]. destruct (longest _ _ _ _) as [[k v]|] eqn:E.
  - apply longest_spec in E. destruct E as [E|[j [-> E]]]; [discriminate|]. cbn [plus]. set (ms := m0 :: m1 :: rest) in *. clearbody ms.
    assert (K : j < length ms) by (apply nth_error_Some; congruence).
    assert (A : exists l', match firstn j ms with [] => Some None | _ => match compileMatchers_f f (firstn j ms) with Some x => Some (Some x) | None => None end end = Some l').
    { destruct (firstn j ms) as [|a b] eqn:F; [eauto|]. rewrite <- F. destruct (IH (firstn j ms)) as [m ->]; [rewrite F; discriminate|rewrite firstn_length; lia|eauto]. }
    assert (B : exists r', match skipn (S j) ms with [] => Some None | _ => match compileMatchers_f f (skipn (S j) ms) with Some x => Some (Some x) | None => None end end = Some r').
    { destruct (skipn (S j) ms) as [|a b] eqn:F; [eauto|]. rewrite <- F. destruct (IH (skipn (S j) ms)) as [m ->]; [rewrite F; discriminate|rewrite skipn_length; lia|eauto]. }
    destruct A as [l' ->]. destruct B as [r' ->]. eauto.
  - destruct (IH (m1 :: rest)) as [m ->]; [discriminate|cbn in *; lia|eauto].
Qed.
Lemma compile_some fuel : forall n sep, weight n <= fuel -> exists m, compile_f fuel n sep = Some m.
Proof.
  induction fuel as [|f IH]; intros n sep L; [pose proof (weight_pos n); lia|]. cbn [compile_f]. destruct n as [|ns|b c|b l h|t| | | |ns]; eauto.
  - rewrite weight_pattern in L.
    destruct (map_opt_some (fun c => option_map optimizeMatcher (compile_f f c sep)) ns) as [ys [E EL]].
    { intros x I. apply sum_in in I. destruct (IH x sep) as [m ->]; [lia|]. cbn. eauto. }
    destruct ns as [|n ns]; [eauto|]. rewrite E. unfold compileMatchers, minimizeMatchers.
    destruct (compileMatchers_some (length (minimize_f (length ys) ys)) (minimize_f (length ys) ys)) as [m ->]; [|lia|cbn; eauto].
    apply minimize_nonempty. destruct ys; [discriminate EL|discriminate].
  - destruct (minimizeTreeAnyOf ns) as [n'|] eqn:E.
    + apply IH. apply factored_weight in E. lia.
    + rewrite weight_anyof in L. destruct (map_opt_some (fun c => option_map optimizeMatcher (compile_f f c sep)) ns) as [ys [-> _]]; [|eauto].
      intros x I. apply sum_in in I. destruct (IH x sep) as [m ->]; [lia|]. cbn. eauto.
Qed.
Lemma compile_mono fuel : forall fuel' n sep m, fuel <= fuel' -> compile_f fuel n sep = Some m -> compile_f fuel' n sep = Some m.
Proof.
  induction fuel as [|f IH]; intros [|f'] n sep m L; [discriminate|discriminate|lia|]. cbn [compile_f]. destruct n as [|ns|b c|b l h|t| | | |ns]; auto.
  - destruct ns as [|n ns]; [auto|]. destruct (map_opt (fun c => option_map optimizeMatcher (compile_f f c sep)) (n :: ns)) as [ys|] eqn:E; [|discriminate].
    rewrite (map_opt_ext _ (fun c => option_map optimizeMatcher (compile_f f' c sep)) _ _) with (2 := E); [auto|].
    intros x y _. destruct (compile_f f x sep) as [z|] eqn:Z; [|discriminate]. rewrite (IH f' x sep z) by (exact Z || lia). auto.
  - destruct (minimizeTreeAnyOf ns) as [n'|]; [apply IH; lia|].
    destruct (map_opt (fun c => option_map optimizeMatcher (compile_f f c sep)) ns) as [ys|] eqn:E; [|discriminate].
    rewrite (map_opt_ext _ (fun c => option_map optimizeMatcher (compile_f f' c sep)) _ _) with (2 := E); [auto|].
    intros x y _. destruct (compile_f f x sep) as [z|] eqn:Z; [|discriminate]. rewrite (IH f' x sep z) by (exact Z || lia). auto.
Qed.
