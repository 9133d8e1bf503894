(** * Lemmas for C87. *)
From Coq Require Import String.
From Coq Require Import ZArith Arith List Bool Lia.
From Verif Require Import Utf8 GoStr GlobLex GlobMatch GlobCompile GlobSpec GlobFragment GlobParse GlobFactor GlobNestSpec GlobLawsSpec.
Import ListNotations.
Open Scope nat_scope.

(** *** Spelling out *)
Definition is_text (n : Node) : Prop := match n with NText _ => True | _ => False end.
Definition kind (ns : list Node) : option Node := match ns with [] => None | NText _ :: _ => Some (NText []) | n :: _ => Some n end.
Lemma kind_join ns : kind (join ns) = kind ns.
Proof. destruct ns as [|n ns]; [reflexivity|]. destruct n; cbn [join]; try reflexivity. destruct (join ns) as [|m l]; [reflexivity|]. destruct m; reflexivity. Qed.
Lemma apart_kind n A B : kind A = kind B -> apart n A -> apart n B.
Proof.
  destruct A as [|x A], B as [|y B]; cbn [kind]; intros E.
  - destruct n; exact (fun H => H).
  - destruct y; discriminate.
  - destruct x; discriminate.
  - destruct n; try (intros _; exact I); destruct x; try (intros []; fail); destruct y; try discriminate; cbn; auto.
Qed.
Lemma kind_app n ns B : kind ((n :: ns) ++ B) = kind (n :: ns).
Proof. destruct n; reflexivity. Qed.
Lemma writes_text_app sp a s b t : writes_text sp a s -> writes_text sp b t -> writes_text sp (a ++ b) (s ++ t).
Proof. induction 1; intros W; cbn; [exact W| |]; [rewrite <- app_assoc; constructor; auto|rewrite <- app_assoc; constructor; auto]. Qed.
Lemma utf8_app a b : utf8 (a ++ b) = utf8 a ++ utf8 b.
Proof. unfold utf8. induction a; [reflexivity|]. cbn. rewrite IHa, app_assoc. reflexivity. Qed.
Lemma join_apart a B Q : writes_seq a B Q -> join B = B.
Proof.
  induction 1 as [|a n ns s t W Ap Ws IH] using writes_seq_ind; [reflexivity|]. destruct n; cbn [join]; rewrite IH; try reflexivity.
  destruct ns as [|m l]; [reflexivity|]. destruct m; try reflexivity. destruct Ap.
Qed.
Lemma writes_join a A P : writes_seq a A P -> forall B Q, writes_seq a B Q -> no_clash A B -> writes_seq a (join (A ++ B)) (P ++ Q).
Proof.
  induction 1 as [a|a n ns s t W Ap Ws IH] using writes_seq_ind; intros B Q WB NC; cbn [app].
  - rewrite (join_apart _ _ _ WB). exact WB.
  - rewrite <- app_assoc. assert (NC' : no_clash ns B). { intros l r t' E. apply (NC (n :: l)). rewrite E. reflexivity. }
    specialize (IH B Q WB NC'). destruct ns as [|n' ns].
    + clear IH. inversion Ws; subst. cbn [app]. destruct n.
      all: try (cbn [join]; rewrite (join_apart _ _ _ WB); constructor; [exact W| |exact WB]; try exact I).
      all: try (inversion W; fail).
      * cbn [join]. rewrite (join_apart _ _ _ WB). destruct B as [|b B]; [inversion WB; subst; constructor; [exact W|exact I|constructor]|].
        destruct b; try (constructor; [exact W|exact I|exact WB]).
        inversion WB as [|? ? ? s1 t1 W1 A1 WS1]; subst. rewrite app_assoc. inversion W as [? cs ? N1 T1| | | | | |]; subst. inversion W1 as [? cs1 ? N2 T2| | | | | |]; subst. rewrite <- utf8_app.
        constructor; [constructor; [destruct cs; [contradiction|discriminate]|apply writes_text_app; assumption]| |exact WS1]. destruct B as [|b B]; [exact I|]. destruct b; try exact I. destruct A1.
      * destruct B as [|b B]; [exact I|]. destruct (NC [] b B eq_refl eq_refl) as [N1 N2]. destruct b; try exact I; contradiction.
    + cbn [app] in IH |- *. assert (K : kind (join (n' :: ns ++ B)) = kind (n' :: ns)) by (rewrite kind_join; apply (kind_app n' ns B)).
      assert (A1 : apart n (join (n' :: ns ++ B))) by (apply (apart_kind n (n' :: ns)); [symmetry; exact K|exact Ap]).
      assert (E : join (n :: n' :: ns ++ B) = n :: join (n' :: ns ++ B)).
      { change (join (n :: n' :: ns ++ B)) with (match n with NText a0 => match join (n' :: ns ++ B) with NText b0 :: t' => NText (a0 ++ b0) :: t' | t' => NText a0 :: t' end | n0 => n0 :: join (n' :: ns ++ B) end).
        destruct n; try reflexivity. destruct (join (n' :: ns ++ B)) as [|y l]; [reflexivity|]. destruct y; try reflexivity. destruct A1. }
      rewrite E. constructor; assumption.
Qed.
Lemma writes_text_fewer sp sp' : (forall c, In c sp' -> In c sp) -> forall cs s, writes_text sp cs s -> writes_text sp' cs s.
Proof. intros S. induction 1; constructor; auto. Qed.
Lemma writes_outside n s : writes true n s -> writes false n s.
Proof.
  inversion 1; subst; try (constructor; assumption). constructor; [assumption|]. eapply writes_text_fewer; [|eassumption].
  intros c I. unfold special_in in *. apply in_or_app. left. apply in_app_or in I. destruct I as [I|[]]. exact I.
Qed.
Lemma writes_seq_outside b ns s : writes_seq b ns s -> b = true -> writes_seq false ns s.
Proof. induction 1 using writes_seq_ind; intros ->; [constructor|]. constructor; [apply writes_outside; assumption|assumption|auto]. Qed.
Lemma writes_before a A P : writes_seq a A P -> forall c B Q, writes_seq a (NAnyOf c :: B) Q -> writes_seq a (A ++ NAnyOf c :: B) (P ++ Q).
Proof.
  induction 1 as [a|a n ns s t W Ap Ws IH] using writes_seq_ind; intros c B Q WB; [exact WB|]. cbn [app]. rewrite <- app_assoc. constructor; [exact W| |apply IH, WB].
  destruct ns; [destruct n; exact I|]. apply (apart_kind n (n0 :: ns)); [symmetry; apply (kind_app n0 ns)|exact Ap].
Qed.
Lemma writes_commas alts : alts <> [] -> written alts -> writes_alts (map NPattern (map fst alts)) (commas alts).
Proof.
  intros Ne F. induction F as [|[ns s] alts W F IH]; [contradiction|]. destruct alts as [|b alts]; [constructor; exact W|].
  change (commas ((ns, s) :: b :: alts)) with (s ++ [cComma] ++ commas (b :: alts)). cbn [map fst]. apply wa_cons; [exact W|]. apply IH. discriminate.
Qed.
Lemma writes_braced pre P alts post Q : writes_seq false pre P -> writes_seq false post Q -> alts <> [] -> written alts ->
  writes_seq false (pre ++ group (map fst alts) :: post) (braced P alts Q).
Proof.
  intros WP WQ Ne W. unfold braced, group. apply writes_before; [exact WP|]. rewrite !app_assoc. rewrite <- (app_assoc [cTermsOpen]). constructor; [|destruct post; exact I|exact WQ].
  constructor. apply writes_commas; assumption.
Qed.

(** *** Meanings *)
Lemma cat_texts seps a b t s : cat seps (NText (a ++ b) :: t) s <-> cat seps (NText a :: NText b :: t) s.
Proof.
  cbn. split.
  - intros [u [v [-> [-> C]]]]. exists a, (b ++ v). rewrite app_assoc. split; [reflexivity|]. split; [reflexivity|]. exists b, v. auto.
  - intros [u [v [-> [-> [u' [v' [-> [-> C]]]]]]]]. exists (a ++ b), v'. rewrite app_assoc. auto.
Qed.
Lemma cat_cons seps n t t' : (forall s, cat seps t s <-> cat seps t' s) -> forall s, cat seps (n :: t) s <-> cat seps (n :: t') s.
Proof. intros E s. cbn. split; intros [u [v [A [B C]]]]; exists u, v; split; [exact A| |exact A|]; split; try exact B; apply E, C. Qed.
Lemma cat_join seps ns : forall s, cat seps (join ns) s <-> cat seps ns s.
Proof.
  induction ns as [|n ns IH]; [intros s; reflexivity|]. destruct n; cbn [join]; try (apply cat_cons; exact IH).
  intros s. rewrite <- (cat_cons seps (NText t) (join ns) ns IH s). destruct (join ns) as [|m l]; [reflexivity|]. destruct m; try reflexivity. apply cat_texts.
Qed.
Lemma cat_choice seps pre alts post s : cat seps (pre ++ group alts :: post) s <-> exists a, In a alts /\ cat seps (pre ++ a ++ post) s.
Proof.
  rewrite cat_app. split.
  - intros [u [v [-> [Cu [v1 [v2 [-> [D C2]]]]]]]]. apply den_anyof in D. destruct D as [n [I D]]. apply in_map_iff in I. destruct I as [a [<- I]]. apply den_pattern in D.
    exists a. split; [exact I|]. apply cat_app. exists u, (v1 ++ v2). split; [reflexivity|]. split; [exact Cu|]. apply cat_app. exists v1, v2. auto.
  - intros [a [I C]]. apply cat_app in C. destruct C as [u [v [-> [Cu C]]]]. apply cat_app in C. destruct C as [v1 [v2 [-> [C1 C2]]]]. exists u, (v1 ++ v2). split; [reflexivity|]. split; [exact Cu|].
    exists v1, v2. split; [reflexivity|]. split; [|exact C2]. apply den_anyof. exists (NPattern a). split; [apply in_map, I|]. apply den_pattern, C1.
Qed.
Fixpoint node_height (n : Node) : nat :=
  match n with NPattern ns => S (fold_right Nat.max 0 (map node_height ns)) | NAnyOf ns => S (fold_right Nat.max 0 (map node_height ns)) | _ => 0 end.
Lemma height_in n ns : In n ns -> node_height n <= fold_right Nat.max 0 (map node_height ns).
Proof. induction ns as [|a ns IH]; [intros []|]. intros [<-|I]; cbn; [lia|]. specialize (IH I). lia. Qed.
Lemma den_fewer seps seps' : incl seps' seps -> forall h n, node_height n <= h -> forall s, den seps n s -> den seps' n s.
Proof.
  intros S. induction h as [|h IH]; intros n H s.
  all: assert (LEAF : match n with NPattern _ | NAnyOf _ => True | _ => den seps n s -> den seps' n s end)
    by (destruct n; try exact I; cbn; try tauto; [intros F; eapply Forall_impl; [|exact F]; intros c N K; apply N, S, K|intros [c [A N]]; exists c; split; [exact A|]; intros K; apply N, S, K]).
  - destruct n; try exact LEAF; cbn in H; lia.
  - destruct n; try exact LEAF; cbn in H.
    + rewrite !den_pattern. assert (C : forall x, In x ch -> forall s, den seps x s -> den seps' x s) by (intros x I; apply IH; pose proof (height_in x ch I); lia). clear H LEAF.
      revert s C. induction ch as [|x ch IHc]; intros s C; [exact (fun E => E)|]. cbn. intros [u [v [E [D K]]]]. exists u, v. split; [exact E|]. split; [apply C; [left; reflexivity|exact D]|]. apply IHc; [|exact K]. intros y I. apply C. right. exact I.
    + rewrite !den_anyof. intros [x [I D]]. exists x. split; [exact I|]. apply (IH x); [|exact D]. pose proof (height_in x ch I). lia.
Qed.
Lemma den_super h : forall n, node_height n <= h -> forall s, den [] (super n) s <-> den [] n s.
Proof.
  induction h as [|h IH]; intros n H s.
  all: assert (LEAF : match n with NPattern _ | NAnyOf _ => True | _ => den [] (super n) s <-> den [] n s end)
    by (destruct n; try exact I; cbn; try tauto; split; [intros _; apply Forall_forall; intros c _ []|intros _; exact I]).
  - destruct n; try exact LEAF; cbn in H; lia.
  - destruct n; try exact LEAF; cbn in H; cbn [super].
    + rewrite !den_pattern. assert (C : forall x, In x ch -> forall s, den [] (super x) s <-> den [] x s) by (intros x I; apply IH; pose proof (height_in x ch I); lia). clear H LEAF.
      revert s C. induction ch as [|x ch IHc]; intros s C; [reflexivity|]. assert (C0 := C x (or_introl eq_refl)). assert (Ct : forall s, cat [] (map super ch) s <-> cat [] ch s) by (intros s'; apply IHc; intros y I; apply C; right; exact I).
      cbn. split; intros [u [v [E [D K]]]]; exists u, v; (split; [exact E|]); split; try (apply C0; exact D); apply Ct, K.
    + rewrite !den_anyof. split.
      * intros [x [I D]]. apply in_map_iff in I. destruct I as [y [<- I]]. exists y. split; [exact I|]. apply IH; [pose proof (height_in y ch I); lia|exact D].
      * intros [x [I D]]. exists (super x). split; [apply in_map, I|]. apply IH; [pose proof (height_in x ch I); lia|exact D].
Qed.
Lemma join_inner a A B Q : writes_seq a (join B) Q -> join (A ++ join B) = join (A ++ B).
Proof. intros W. induction A as [|n A IH]; [exact (join_apart _ _ _ W)|]. cbn [app join]. rewrite IH. reflexivity. Qed.
Lemma no_clash_join A B : no_clash A B -> no_clash A (join B).
Proof.
  intros N l r t E1 E2. pose proof (kind_join B) as K. rewrite E2 in K. destruct B as [|b B]; [destruct r; discriminate K|]. destruct (N l b B E1 eq_refl) as [N1 N2].
  split; intros ->; destruct b; discriminate K || contradiction.
Qed.
