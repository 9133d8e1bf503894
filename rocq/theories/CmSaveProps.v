(** * Theorems C59: Save and Load. *)
From Coq Require Import String.
From Coq Require Import ZArith NArith Arith List Bool Permutation Lia.
From Verif Require Import Utf8 GoStr CmModel CmSpec CmProofs CmIndex CmProps CmSave.
Import ListNotations.
Open Scope nat_scope.

(** ** Maps *)
Section Fold.
  Context {K V : Type} (dec : forall a b : K, {a = b} + {a <> b}).
  Definition puts (l : list (K * V)) (m : list (K * V)) := fold_left (fun m e => put dec m (fst e) (snd e)) l m.
  Lemma get_puts_last l1 : forall k v l2 m, ~ In k (map fst l2) -> get dec (puts (l1 ++ (k, v) :: l2) m) k = Some v.
  Proof.
    induction l1 as [|e l1 IH]; intros k v l2 m N; [|apply IH; exact N]. cbn [app]. unfold puts. cbn [fold_left fst snd].
    assert (X : forall l m, ~ In k (map fst l) -> get dec (puts l m) k = get dec m k).
    { clear. induction l as [|e l IH]; intros m N; [reflexivity|]. unfold puts. cbn [fold_left]. rewrite IH, get_put by (intros I; apply N; right; exact I). destruct dec as [->|]; [|reflexivity]. exfalso. apply N. left. reflexivity. }
    change (get dec (puts l2 (put dec m k v)) k = Some v). rewrite (X _ _ N), get_put. destruct dec; [reflexivity|contradiction].
  Qed.
  Lemma get_puts_none l : forall m k, ~ In k (map fst l) -> get dec (puts l m) k = get dec m k.
  Proof.
    induction l as [|e l IH]; intros m k N; [reflexivity|]. unfold puts. cbn [fold_left]. rewrite IH, get_put by (intros I; apply N; right; exact I). destruct dec as [->|]; [|reflexivity]. exfalso. apply N. left. reflexivity.
  Qed.
  Lemma last_split (l : list (K * V)) k : In k (map fst l) -> exists l1 v l2, l = l1 ++ (k, v) :: l2 /\ ~ In k (map fst l2).
  Proof.
    induction l as [|[k' v] l IH]; [intros []|]. intros I. destruct (in_dec dec k (map fst l)) as [Y|N].
    - destruct (IH Y) as [l1 [v' [l2 [-> N]]]]. exists ((k', v) :: l1), v', l2. auto.
    - destruct I as [E|I]; [|contradiction]. cbn in E. subst k'. exists [], v, l. auto.
  Qed.
End Fold.
(** The maps of an index have distinct keys. *)
Definition wf (cm : CM) : Prop := NoDup (map fst (SubstringToID cm)) /\ NoDup (map fst (ID cm)).
Lemma add_subs_wf order id : forall m, NoDup (map fst m) -> NoDup (map fst (fold_left (fun m g => add_sub m g id) order m)).
Proof. induction order as [|g order IH]; intros m N; [exact N|]. apply IH. apply put_nodup. exact N. Qed.
Lemma Adds_wf lower cm i ws cm' : Adds lower cm i ws cm' -> wf cm -> wf cm'.
Proof. induction 1 as [|cm i s rest order cm' P A IH]; intros W; [exact W|]. apply IH. destruct W as [W1 W2]. split; [apply add_subs_wf; exact W1|apply put_nodup; exact W2]. Qed.

(** ** What is loaded *)
Lemma coerce_nil : coerce [] = []. Proof. reflexivity. Qed.
Lemma coerce_valid s : valid_utf8 s -> coerce s = s.
Proof. intros [rs [F ->]]. unfold coerce. rewrite runes_utf8 by exact F. reflexivity. Qed.
Lemma encode_fixed r : exists r', valid_rune r' /\ encode r = encode r'.
Proof.
  destruct ((r <? 0) || (r >? 1114111) || surrogate r)%Z eqn:E.
  - exists RuneError. split; [split; [unfold RuneError; lia|reflexivity]|]. unfold encode. rewrite E. reflexivity.
  - exists r. split; [|reflexivity]. apply orb_false_iff in E. destruct E as [E E3]. apply orb_false_iff in E. destruct E as [E1 E2]. split; [|exact E3]. lia.
Qed.
Lemma utf8_valid rs : valid_utf8 (utf8 rs).
Proof.
  induction rs as [|r rs [rs' [F E]]]; [exists []; split; [constructor|reflexivity]|]. destruct (encode_fixed r) as [r' [V Er]]. exists (r' :: rs'). split; [constructor; assumption|].
  unfold utf8 in *. cbn [map concat]. rewrite Er, E. reflexivity.
Qed.
Lemma coerce_is_valid s : valid_utf8 (coerce s). Proof. apply utf8_valid. Qed.
Lemma ascii_valid s : Forall (fun b => (0 <= b < 128)%Z) s -> valid_utf8 s.
Proof.
  intros F. exists s. split.
  - eapply Forall_impl; [|exact F]. cbv beta. intros b H. split; [lia|]. unfold surrogate, in_range. destruct (Z.leb_spec 55296 b); [lia|reflexivity].
  - unfold utf8. induction F as [|b s H F IH]; [reflexivity|]. cbn [map concat]. rewrite <- IH. unfold encode.
    destruct (Z.ltb_spec b 0); [lia|]. rewrite Z.gtb_ltb. destruct (Z.ltb_spec 1114111 b); [lia|]. unfold surrogate, in_range. destruct (Z.leb_spec 55296 b); [lia|]. cbn [orb andb]. destruct (Z.ltb_spec b 128); [reflexivity|lia].
Qed.
Section Loaded.
  Variables (cm : CM) (d : Doc).
  Hypothesis W : wf cm.
  Hypothesis E : Encode cm d.
  Lemma loaded_key id : key_of (Decode d) id = coerce (key_of cm id).
  Proof.
    destruct E as [_ [_ P]]. destruct W as [_ N]. unfold key_of, Decode. cbn [ID]. fold (puts N.eq_dec (dID d) []).
    assert (K : Permutation (map fst (dID d)) (map fst (ID cm))). { apply (Permutation_map fst) in P. rewrite map_map in P. exact P. }
    destruct (get N.eq_dec (ID cm) id) as [[k n]|] eqn:G.
    - apply (get_in N.eq_dec) in G; [|exact N].
      assert (I : In (id, (coerce k, n)) (dID d)). { apply (Permutation_in _ (Permutation_sym P)). apply in_map_iff. exists (id, (k, n)). auto. }
      assert (Nd : NoDup (map fst (dID d))) by (exact (Permutation_NoDup (Permutation_sym K) N)).
      apply in_split in I. destruct I as [l1 [l2 I]]. rewrite I in *. rewrite get_puts_last; [reflexivity|]. rewrite map_app in Nd. cbn [map fst] in Nd. apply NoDup_remove_2 in Nd. intros X. apply Nd. apply in_or_app. auto.
    - rewrite get_puts_none; [reflexivity|]. apply get_none in G. intros I. apply G. exact (Permutation_in _ K I).
  Qed.
  (** Among the substrings that become the same text the bytewise greatest survives. *)
  Lemma loaded_sub g : 
    (get str_dec (SubstringToID (Decode d)) g = None /\ forall k l, In (k, l) (SubstringToID cm) -> coerce k <> g) \/
    exists k l l', get str_dec (SubstringToID cm) k = Some l /\ get str_dec (SubstringToID (Decode d)) g = Some l' /\ Permutation l' l /\ coerce k = g /\
      forall k2 l2, In (k2, l2) (SubstringToID cm) -> coerce k2 = g -> k2 = k \/ before k2 k.
  Proof.
    destruct E as [_ [[entries [P [So F]]] _]]. destruct W as [N _]. unfold Decode. cbn [SubstringToID]. fold (puts str_dec (dSub d) []).
    assert (M : map fst (dSub d) = map (fun e => coerce (fst e)) entries). { clear - F. induction F as [|e w es ws [H _] F IH]; [reflexivity|]. cbn [map]. rewrite H, IH. reflexivity. }
    destruct (in_dec str_dec g (map fst (dSub d))) as [Y|Nn].
    - right. destruct (last_split str_dec _ _ Y) as [l1 [v [l2 [Ed Nl]]]]. rewrite Ed in *. rewrite get_puts_last by exact Nl.
      apply Forall2_app_inv_r in F. destruct F as [e1 [e2' [F1 [F2 ->]]]]. inversion F2 as [|[k l] w e2 ws [H1 H2] F3]; subst. cbn [fst snd] in *.
      exists k, l, v. assert (Ik : In (k, l) (SubstringToID cm)) by (apply (Permutation_in _ P); apply in_or_app; right; left; reflexivity).
      split; [apply (get_in str_dec); assumption|]. split; [reflexivity|]. split; [exact H2|]. split; [auto|]. intros k2 l0 I2 C.
      apply (Permutation_in _ (Permutation_sym P)) in I2. apply in_app_or in I2. destruct I2 as [I2|[I2|I2]].
      + right. apply in_split in I2. destruct I2 as [a [b ->]]. rewrite <- app_assoc in So. apply (So (map fst a) k2 (map fst b) k (map fst e2)). rewrite !map_app. cbn [map fst app]. rewrite ?map_app. cbn [map fst app]. reflexivity.
      + left. congruence.
      + exfalso. apply Nl. assert (M2 : map fst l2 = map (fun e => coerce (fst e)) e2). { clear - F3. induction F3 as [|e w es ws [H _] F IH]; [reflexivity|]. cbn [map]. rewrite H, IH. reflexivity. }
        rewrite M2. apply in_map_iff. exists (k2, l0). split; [cbn [fst]; congruence|exact I2].
    - left. split; [rewrite get_puts_none by exact Nn; reflexivity|]. intros k l I C. apply Nn. rewrite M. apply in_map_iff. exists (k, l). split; [exact C|]. exact (Permutation_in _ (Permutation_sym P) I).
  Qed.
End Loaded.

(** ** Indexes that answer alike *)
Definition alike (cm cm' : CM) : Prop :=
  SubstringSizes cm' = SubstringSizes cm /\ (forall id, key_of cm' id = key_of cm id) /\
  forall g, match get str_dec (SubstringToID cm) g, get str_dec (SubstringToID cm') g with Some l, Some l' => Permutation l' l | None, None => True | _, _ => False end.
Lemma score_ids_ext cm cm' w : (forall id, key_of cm' id = key_of cm id) -> forall o m, score_ids cm' w o m = score_ids cm w o m.
Proof. intros H. induction o as [|i o IH]; intros m; [reflexivity|]. cbn [score_ids]. rewrite H. destruct (length (key_of cm i)); [reflexivity|]. apply IH. Qed.
Lemma alike_sym cm cm' : alike cm cm' -> alike cm' cm.
Proof. intros [A [B C]]. split; [auto|]. split; [auto|]. intros g. specialize (C g). do 2 destruct get; auto. apply Permutation_sym. exact C. Qed.
Lemma alike_work cm cm' g r : alike cm cm' -> work cm g r -> work cm' g r.
Proof.
  intros [_ [K C]] H. specialize (C g). inversion H as [G|G|l o G N P]; subst; rewrite G in C; destruct (get str_dec (SubstringToID cm') g) as [l'|] eqn:G'; try contradiction.
  - apply work_absent. exact G'.
  - apply Permutation_sym, Permutation_nil in C. subst. apply work_none. exact G'.
  - rewrite <- (score_ids_ext cm cm' _ K), <- (Permutation_length C). apply (work_ids cm' g l' o G').
    + intros ->. apply Permutation_nil in C. contradiction.
    + eapply perm_trans; [exact P|apply Permutation_sym; exact C].
Qed.
Lemma alike_step cm cm' cap s o : alike cm cm' -> step cm cap s o -> step cm' cap s o.
Proof. intros A H. inversion H; subst; try (econstructor; eauto using alike_work; fail). Qed.
Lemma alike_runs cm cm' cap k s s' : alike cm cm' -> runs cm cap k s s' -> runs cm' cap k s s'.
Proof. intros A. induction 1; [constructor|]. econstructor; [eassumption|]. eapply alike_step; eauto. Qed.
Lemma alike_match cm cm' q m : alike cm cm' -> match_ cm q m -> match_ cm' q m.
Proof.
  intros A [s [[o [k [P R]]] H]]. exists s. split; [|exact H]. exists o, k. destruct A as [A1 A2]. rewrite A1. split; [exact P|]. eapply alike_runs; [|exact R]. split; auto.
Qed.
Lemma alike_crash cm cm' q : alike cm cm' -> crashes cm q -> crashes cm' q.
Proof.
  intros A [o [k [s [P [R H]]]]]. exists o, k, s. pose proof A as [A1 A2]. rewrite A1. split; [exact P|]. split; [eapply alike_runs; eauto|eapply alike_step; eauto].
Qed.
Lemma alike_ClosestN cm cm' q n res : alike cm cm' -> ClosestN cm q n res -> ClosestN cm' q n res.
Proof. intros A [m [pl [M R]]]. exists m, pl. split; [eapply alike_match; eauto|exact R]. Qed.
Lemma alike_Closest cm cm' q res : alike cm cm' -> Closest cm q res -> Closest cm' q res.
Proof. intros A [m [pl [M R]]]. exists m, pl. split; [eapply alike_match; eauto|exact R]. Qed.

(** ** The words an index was built from *)
(** New followed by any number of calls of Add. *)
Inductive built (lower : str -> str) (sizes : list nat) : list str -> CM -> Prop :=
  | built_new ws cm : New lower ws sizes cm -> built lower sizes ws cm
  | built_add ws cm vs cm' : built lower sizes ws cm -> Add lower cm vs cm' -> built lower sizes (ws ++ vs) cm'.
Lemma add_subs_keys order id k : forall m, In k (map fst (fold_left (fun m g => add_sub m g id) order m)) -> In k (map fst m) \/ In k order.
Proof.
  induction order as [|g order IH]; intros m I; [auto|]. cbn [fold_left] in I. apply IH in I. destruct I as [I|I]; [|right; right; exact I]. unfold add_sub in I. apply put_keys in I. destruct I as [->|I]; [right; left; reflexivity|auto].
Qed.
Lemma put_in {K V} (dec : forall a b : K, {a = b} + {a <> b}) (m : list (K * V)) k v e : In e (put dec m k v) -> e = (k, v) \/ In e m.
Proof.
  induction m as [|[k' v'] m IH]; cbn [put]; [intros [<-|[]]; auto|]. destruct dec as [->|]; intros [<-|I]; cbn [In]; auto. destruct (IH I); auto.
Qed.
Lemma Adds_keys lower cm i ws cm' : Adds lower cm i ws cm' ->
  (forall k, In k (map fst (SubstringToID cm')) -> In k (map fst (SubstringToID cm)) \/ exists w, In w ws /\ gram (SubstringSizes cm) (lower w) k) /\
  (forall i w n, In (i, (w, n)) (ID cm') -> In (i, (w, n)) (ID cm) \/ In w ws).
Proof.
  induction 1 as [|cm i s rest order cm' P A [IH1 IH2]]; [auto|]. split.
  - intros k I. apply IH1 in I. cbn [add_word SubstringSizes SubstringToID] in I. destruct I as [I|[w [I G]]].
    + apply add_subs_keys in I. destruct I as [I|I]; [auto|]. right. exists s. split; [left; reflexivity|]. apply splitWord_gram. exact (Permutation_in _ P I).
    + right. exists w. split; [right; exact I|exact G].
  - intros j w n I. apply IH2 in I. cbn [add_word ID] in I. destruct I as [I|I]; [|right; right; exact I]. apply put_in in I. destruct I as [I|I]; [|auto]. injection I as _ -> _. right. left. reflexivity.
Qed.
Lemma built_facts lower sizes ws cm : built lower sizes ws cm -> wf cm /\ SubstringSizes cm = sizes /\
  (forall k, In k (map fst (SubstringToID cm)) -> exists w, In w ws /\ gram sizes (lower w) k) /\ (forall i w n, In (i, (w, n)) (ID cm) -> In w ws).
Proof.
  induction 1 as [ws cm H|ws cm vs cm' B [IW [IS [I1 I2]]] H].
  - split; [eapply Adds_wf; [exact H|split; constructor]|]. split; [exact (Adds_sizes _ _ _ _ _ H)|]. destruct (Adds_keys _ _ _ _ _ H) as [K1 K2]. split.
    + intros k I. apply K1 in I. destruct I as [[]|I]. exact I.
    + intros i w n I. apply K2 in I. destruct I as [[]|I]. exact I.
  - split; [eapply Adds_wf; [exact H|exact IW]|]. split; [rewrite (Adds_sizes _ _ _ _ _ H); exact IS|]. destruct (Adds_keys _ _ _ _ _ H) as [K1 K2]. rewrite IS in K1. split.
    + intros k I. apply K1 in I. destruct I as [I|[w [I G]]]; [destruct (I1 _ I) as [w [I' G]]|]; exists w; (split; [apply in_or_app; auto|exact G]).
    + intros i w n I. apply in_or_app. apply K2 in I. destruct I as [I|I]; [left; eapply I2; exact I|auto].
Qed.
Lemma valid_alike lower sizes ws cm d : built lower sizes ws cm -> Encode cm d ->
  (forall w, In w ws -> valid_utf8 w) -> (forall w g, In w ws -> gram sizes (lower w) g -> valid_utf8 g) -> alike cm (Decode d).
Proof.
  intros B E V G. destruct (built_facts _ _ _ _ B) as [W [Sz [K1 K2]]]. split; [exact (proj1 E)|]. split.
  - intros id. rewrite (loaded_key cm d W E). unfold key_of. destruct (get N.eq_dec (ID cm) id) as [[k n]|] eqn:X; [|reflexivity]. apply (get_in N.eq_dec) in X; [|apply W]. apply coerce_valid. apply V. eapply K2. exact X.
  - assert (C : forall k l, In (k, l) (SubstringToID cm) -> coerce k = k).
    { intros k l I. apply coerce_valid. destruct (K1 k) as [w [Iw Gw]]; [apply in_map_iff; exists (k, l); auto|]. exact (G w k Iw Gw). }
    intros g. destruct (loaded_sub cm d W E g) as [[-> N]|[k [l [l' [X [-> [P [Ck _]]]]]]]].
    + destruct (get str_dec (SubstringToID cm) g) as [l|] eqn:X; [|exact I]. apply (get_in str_dec) in X; [|apply W]. apply (N g l X). exact (C g l X).
    + assert (Y : In (k, l) (SubstringToID cm)) by (apply (get_in str_dec) in X; [exact X|apply W]). rewrite (C k l Y) in Ck. subst g. rewrite X. exact P.
Qed.

(** ** The theorems *)
(** If the words and their substrings are valid UTF-8, saving and loading changes no answer, for any query, and no crash. *)
Theorem C59_same_answers lower sizes ws cm d q : built lower sizes ws cm -> Encode cm d ->
  (forall w, In w ws -> valid_utf8 w) -> (forall w g, In w ws -> gram sizes (lower w) g -> valid_utf8 g) ->
  (forall n res, ClosestN (Decode d) q n res <-> ClosestN cm q n res) /\ (forall res, Closest (Decode d) q res <-> Closest cm q res) /\ (crashes (Decode d) q <-> crashes cm q).
Proof.
  intros B E V G. pose proof (valid_alike _ _ _ _ _ B E V G) as A. pose proof (alike_sym _ _ A) as A'.
  repeat split; intros H; eauto using alike_ClosestN, alike_Closest, alike_crash.
Qed.
(** In particular for lists of ASCII words, the store's case. *)
Theorem C59_ascii_same_answers lower sizes ws cm d q : built lower sizes ws cm -> Encode cm d ->
  (forall w, In w ws -> Forall (fun b => (0 <= b < 128)%Z) w /\ Forall (fun b => (0 <= b < 128)%Z) (lower w)) ->
  (forall n res, ClosestN (Decode d) q n res <-> ClosestN cm q n res) /\ (forall res, Closest (Decode d) q res <-> Closest cm q res) /\ (crashes (Decode d) q <-> crashes cm q).
Proof.
  intros B E A. apply (C59_same_answers lower sizes ws); [exact B|exact E| |].
  - intros w I. apply ascii_valid. apply A. exact I.
  - intros w g I G. apply ascii_valid. destruct (A w I) as [_ L]. destruct G as [[_ [_ [a [b X]]]]|[_ ->]]; [|exact L]. rewrite X in L. apply Forall_app in L. destruct L as [_ L]. apply Forall_app in L. apply L.
Qed.
(** A query none of whose substrings is valid UTF-8 finds nothing in a loaded index, whatever was saved. *)
Theorem C59_invalid_pieces_lost cm d q n res : wf cm -> Encode cm d -> (forall g, gram (SubstringSizes cm) q g -> ~ valid_utf8 g) -> ClosestN (Decode d) q n res -> res = [].
Proof.
  intros W E G [m [pl [M [[P _] ->]]]]. apply match_total in M. destruct M as [Pm [V _]].
  assert (Z : m = []). 
  { destruct m as [|[k v] m]; [reflexivity|exfalso]. assert (I : In (k, v) ((k, v) :: m)) by (left; reflexivity). apply posmap_in in I; [|exact Pm]. destruct I as [I1 I2]. rewrite V in I1. rewrite <- I1 in I2. unfold total in I2. apply sum_pos in I2. destruct I2 as [g [Ig Cg]].
    apply splitWord_gram in Ig. assert (Sz : SubstringSizes (Decode d) = SubstringSizes cm) by apply E. rewrite Sz in Ig. apply (G g Ig). unfold contrib in Cg. destruct (loaded_sub cm d W E g) as [[N _]|[k' [l [l' [_ [_ [_ [<- _]]]]]]]]; [rewrite N in Cg; lia|apply coerce_is_valid]. }
  rewrite Z in P. apply Permutation_sym, Permutation_nil in P. subst pl. destruct n; reflexivity.
Qed.

(** ** Files *)
(** If Save returned nil and a later Load returns nil, the loaded index is the saved one as JSON carries it, never another or a part of it. *)
Theorem C59_load_gives_saved cm old f cm' : Save cm old f true -> Load f cm' true -> exists d, Encode cm d /\ cm' = Decode d.
Proof. intros H L. inversion H; subst; inversion L; subst; eauto. Qed.
(** So for ASCII words Save and Load, both reporting no error, preserve every answer. *)
Theorem C59_save_load_ascii lower sizes ws cm old f cm' q : built lower sizes ws cm -> Save cm old f true -> Load f cm' true ->
  (forall w, In w ws -> Forall (fun b => (0 <= b < 128)%Z) w /\ Forall (fun b => (0 <= b < 128)%Z) (lower w)) ->
  (forall n res, ClosestN cm' q n res <-> ClosestN cm q n res) /\ (forall res, Closest cm' q res <-> Closest cm q res) /\ (crashes cm' q <-> crashes cm q).
Proof. intros B H L A. destruct (C59_load_gives_saved _ _ _ _ H L) as [d [E ->]]. eapply C59_ascii_same_answers; eassumption. Qed.

(** Every index can be written. *)
Lemma before_total : forall a b, a = b \/ before a b \/ before b a.
Proof.
  induction a as [|x a IH]; intros [|y b]; cbn [before]; auto. destruct (Z.lt_trichotomy x y) as [L|[->|L]]; auto. destruct (IH b) as [->|[H|H]]; auto.
Qed.
Lemma before_trans : forall a b c, before a b -> before b c -> before a c.
Proof.
  induction a as [|x a IH]; intros [|y b] [|z c]; cbn [before]; try tauto. intros [L|[-> L]] [M|[-> M]]; try (left; lia). right. split; [reflexivity|]. eapply IH; eassumption.
Qed.
Lemma sorted_exists (m : list (str * list N)) : NoDup (map fst m) -> exists es, Permutation es m /\ ForallOrdPairs before (map fst es).
Proof.
  induction m as [|[k l] m IH]; cbn [map fst]; intros N; [exists []; split; constructor|]. inversion N as [|? ? Nk Nm]; subst. destruct (IH Nm) as [es [P F]].
  assert (Nk' : ~ In k (map fst es)) by (intros I; apply Nk; exact (Permutation_in _ (Permutation_map fst P) I)).
  assert (X : exists es', Permutation es' ((k, l) :: es) /\ ForallOrdPairs before (map fst es')).
  { clear - F Nk'. induction es as [|[k' l'] es IH]; [exists [(k, l)]; split; [constructor; constructor|repeat constructor]|]. cbn [map fst] in *. inversion F as [|? ? F1 F2]; subst. rewrite Forall_forall in F1.
    destruct (before_total k k') as [->|[H|H]]; [exfalso; apply Nk'; left; reflexivity| |].
    - exists ((k, l) :: (k', l') :: es). split; [reflexivity|]. cbn [map fst]. constructor; [|exact F]. constructor; [exact H|]. rewrite Forall_forall. intros x I. eapply before_trans; [exact H|]. apply F1. exact I.
    - destruct (IH F2) as [es' [P G]]; [intros I; apply Nk'; right; exact I|]. exists ((k', l') :: es'). split; [rewrite P; apply perm_swap|]. cbn [map fst]. constructor; [|exact G]. rewrite Forall_forall. intros x I. apply (Permutation_in _ (Permutation_map fst P)) in I. destruct I as [<-|I]; [exact H|apply F1; exact I]. }
  destruct X as [es' [P' F']]. exists es'. split; [|exact F']. rewrite P'. constructor. exact P.
Qed.
Lemma Encode_exists cm : wf cm -> exists d, Encode cm d.
Proof.
  intros [N _]. destruct (sorted_exists _ N) as [es [P F]]. exists {| dSizes := SubstringSizes cm; dSub := map (fun e => (coerce (fst e), snd e)) es; dID := map (fun e => (fst e, (coerce (fst (snd e)), snd (snd e)))) (ID cm) |}.
  split; [reflexivity|]. split; [|reflexivity]. exists es. split; [exact P|]. split.
  - clear - F. induction F as [|k l H F IH]; intros l1 k1 l2 k2 l3 E; [destruct l1; discriminate|]. destruct l1 as [|k0 l1]; [|injection E as _ E; eapply IH; exact E]. injection E as -> E. rewrite Forall_forall in H. apply H. rewrite E. apply in_or_app. right. left. reflexivity.
  - cbn [dSub]. clear. induction es as [|e es IH]; constructor; [split; reflexivity|exact IH].
Qed.
(** "€" in lower case is itself; its two-byte substrings are not UTF-8. *)
Definition euro : str := [226; 130; 172]%Z.
(** Expected: loading what was saved gives an index with the same answers.  Refuted: the list ["€"] with substring size 2, asked for "€". *)
Theorem C59_same_answers_refuted : exists ws q,
  (exists cm d res, New ascii_lower ws [2] cm /\ Encode cm d /\ Closest cm q res /\ res = q /\ Closest (Decode d) q []) /\
  forall cm d res, New ascii_lower ws [2] cm -> Encode cm d -> (Closest cm q res -> res = q) /\ (Closest (Decode d) q res -> res = []).
Proof.
  exists [euro], euro. assert (Ft : fits [euro]) by (vm_compute; discriminate).
  assert (Inv : forall g, gram [2] euro g -> g = [226; 130]%Z \/ g = [130; 172]%Z). { intros g G. apply splitWord_gram in G. revert G. vm_compute. intuition. }
  assert (X : forall cm d res, New ascii_lower [euro] [2] cm -> Encode cm d -> (Closest cm euro res -> res = euro) /\ (Closest (Decode d) euro res -> res = [])).
  { intros cm d res A E. split.
    - intros C. destruct (C27_Closest_best _ _ _ _ _ _ A Ft C) as [[[<-|[]] _]|[_ B]]; [reflexivity|]. exfalso. apply (B euro); [left; reflexivity|]. apply shares_self. reflexivity.
    - intros C. apply C27_Closest_first in C. destruct C as [l [C ->]]. destruct (built_facts _ _ _ _ (built_new _ _ _ _ A)) as [W [Sz _]].
      rewrite (C59_invalid_pieces_lost cm d euro 1 l W E); [reflexivity| |exact C]. rewrite Sz. intros g G [rs [F Eg]].
      assert (R : runes g = rs) by (rewrite Eg; apply runes_utf8; exact F). destruct (Inv g G) as [->| ->]; vm_compute in R; subst rs; vm_compute in Eg; discriminate. }
  split; [|exact X]. destruct (New_exists ascii_lower [euro] [2]) as [cm A]. destruct (built_facts _ _ _ _ (built_new _ _ _ _ A)) as [W [Sz _]]. destruct (Encode_exists cm W) as [d E].
  destruct (C27_answers cm euro 1) as [l C]. { rewrite (C26_crashes_iff ascii_lower [euro] [2]); [intros [? _]; discriminate|reflexivity|exact A|exact Ft]. }
  assert (C1 : Closest cm euro (match l with [] => [] | k :: _ => k end)) by (apply C27_Closest_first; eauto).
  destruct (C27_answers (Decode d) euro 1) as [l' C'].
  { rewrite crash_bad. intros [g [I [l0 [G _]]]]. destruct (loaded_sub cm d W E g) as [[N _]|[k [l1 [l2 [_ [_ [_ [Ck _]]]]]]]]; [congruence|]. assert (Sz' : SubstringSizes (Decode d) = [2]) by (rewrite <- Sz; apply E). rewrite Sz' in I. apply splitWord_gram in I.
    pose proof (coerce_is_valid k) as V. rewrite Ck in V. destruct V as [rs [F Eg]]. assert (R : runes g = rs) by (rewrite Eg; apply runes_utf8; exact F). destruct (Inv g I) as [->| ->]; vm_compute in R; subst rs; vm_compute in Eg; discriminate. }
  assert (C2 : Closest (Decode d) euro (match l' with [] => [] | k :: _ => k end)) by (apply C27_Closest_first; eauto).
  exists cm, d, euro. split; [exact A|]. split; [exact E|]. rewrite <- (proj1 (X cm d _ A E) C1) at 2. split; [exact C1|]. split; [reflexivity|]. rewrite <- (proj2 (X cm d _ A E) C2). exact C2.
Qed.
(** Expected: nil from Save means the index is on disk.  Refuted for every index: the errors of closing are dropped, and Load may then fail. *)
Theorem C59_nil_means_saved_refuted cm old : wf cm -> exists f, Save cm old f true /\ (forall d, f <> Whole d) /\ Load f new_cm false.
Proof. intros W. destruct (Encode_exists cm W) as [d E]. exists (Cut d). split; [apply save_close; exact E|]. split; [discriminate|]. constructor. Qed.

(** Substrings that become the same text when they are written: the loaded entry is that of the greatest of them, compared byte by
    byte from the front. *)
Definition smaller (a b : str) : Prop := exists p, (exists c b', a = p /\ b = p ++ c :: b') \/ (exists x y a' b', a = p ++ x :: a' /\ b = p ++ y :: b' /\ (x < y)%Z).
Lemma before_smaller : forall a b, before a b <-> smaller a b.
Proof.
  induction a as [|x a IH]; intros [|y b]; cbn [before].
  - split; [intros []|]. intros [p [[c [b' [_ E]]]|[x [y [a' [b' [E _]]]]]]]; destruct p; discriminate.
  - split; [|intros _; exact I]. intros _. exists []. left. exists y, b. auto.
  - split; [intros []|]. intros [p [[c [b' [_ E]]]|[x0 [y [a' [b' [_ [E _]]]]]]]]; destruct p; discriminate.
  - rewrite IH. split.
    + intros [L|[-> [p H]]]; [exists []; right; exists x, y, a, b; auto|]. exists (y :: p). destruct H as [[c [b' [-> ->]]]|[u [v [a' [b' [-> [-> L]]]]]]]; [left; exists c, b'; auto|]. right. exists u, v, a', b'. auto.
    + intros [p H]. destruct p as [|z p].
      * destruct H as [[c [b' [E _]]]|[u [v [a' [b' [Ea [Eb L]]]]]]]; [discriminate|]. injection Ea as -> ->. injection Eb as -> ->. auto.
      * right. destruct H as [[c [b' [Ea Eb]]]|[u [v [a' [b' [Ea [Eb L]]]]]]]; injection Ea as -> ->; injection Eb as -> ->; (split; [reflexivity|]); exists p; [left; exists c, b'|right; exists u, v, a', b']; auto.
Qed.
Theorem C59_greatest_survives lower sizes ws cm d g ids : built lower sizes ws cm -> Encode cm d -> get str_dec (SubstringToID (Decode d)) g = Some ids ->
  exists k ids', get str_dec (SubstringToID cm) k = Some ids' /\ Permutation ids ids' /\ utf8 (runes k) = g /\
    forall k2, In k2 (map fst (SubstringToID cm)) -> utf8 (runes k2) = g -> k2 = k \/ smaller k2 k.
Proof.
  intros B E G. destruct (built_facts _ _ _ _ B) as [W _]. destruct (loaded_sub cm d W E g) as [[N _]|[k [l [l' [H1 [H2 [H3 [H4 H5]]]]]]]]; [congruence|]. rewrite H2 in G. injection G as ->.
  exists k, l. split; [exact H1|]. split; [exact H3|]. split; [exact H4|]. intros k2 I C. apply in_map_iff in I. destruct I as [[k3 l3] [<- I]]. cbn [fst] in *. destruct (H5 k3 l3 I C) as [->|X]; [auto|]. right. apply before_smaller. exact X.
Qed.
(** When Save reports an error the file is as it was before, or cut short: it never holds a complete document. *)
Theorem C59_failed_save cm old f : Save cm old f false -> f = old \/ exists d, Encode cm d /\ f = Cut d.
Proof. intros H. inversion H; subst; eauto. Qed.
(** Load does not check the document: if a substring of the query lists a word number the document does not define, the query makes
    the program panic, so no result is returned. *)
Theorem C59_undefined_word_crashes d cm q g ids id : Load (Whole d) cm true -> gram (dSizes d) q g -> get str_dec (SubstringToID cm) g = Some ids -> In id ids -> ~ In id (map fst (dID d)) ->
  crashes cm q /\ (forall n res, ~ ClosestN cm q n res) /\ forall res, ~ Closest cm q res.
Proof.
  intros L G S1 I N. inversion L; subst.
  assert (C : crashes (Decode d) q).
  { apply crash_bad. exists g. split; [apply splitWord_gram; exact G|]. exists ids. split; [exact S1|]. right. exists id. split; [exact I|]. unfold key_of, Decode. cbn [ID]. fold (puts N.eq_dec (dID d) []). rewrite get_puts_none by exact N. reflexivity. }
  split; [exact C|]. split; [intros n res [m [pl [M _]]]|intros res [m [pl [M _]]]]; apply (proj1 (C26_returns_or_crashes (Decode d) q)); eauto.
Qed.
Example C59_undefined_case : let d := {| dSizes := [2]; dSub := [(lit "ab", [7%N])]; dID := [] |} in crashes (Decode d) (lit "ab").
Proof. intros d. apply (C59_undefined_word_crashes d _ _ (lit "ab") [7%N] 7%N); [constructor| |reflexivity|left; reflexivity|intros []]. apply splitWord_gram. vm_compute. auto. Qed.

(** ** Not vacuous *)
Example C59_case : exists cm f cm', built ascii_lower [2] [lit "sites/github"; lit "bank/ABN"] cm /\ Save cm NoFile f true /\ Load f cm' true /\ Closest cm' (lit "bank/abn") (lit "bank/ABN").
Proof.
  set (ws := [lit "sites/github"; lit "bank/ABN"]). destruct (New_exists ascii_lower ws [2]) as [cm A]. pose proof (built_new _ _ _ _ A) as B. destruct (built_facts _ _ _ _ B) as [W [Sz _]]. destruct (Encode_exists cm W) as [d E].
  exists cm, (Whole d), (Decode d). split; [exact B|]. split; [apply save_done; exact E|]. split; [constructor|].
  assert (Ft : fits ws) by (vm_compute; discriminate).
  apply (C59_ascii_same_answers ascii_lower [2] ws cm d); [exact B|exact E| |].
  { assert (Q : forallb (fun w => forallb (fun b => (0 <=? b) && (b <? 128))%Z (w ++ ascii_lower w)) ws = true) by (vm_compute; reflexivity).
    intros w I. rewrite forallb_forall in Q. specialize (Q w I). apply Forall_app. apply Forall_forall. rewrite forallb_forall in Q. intros b Ib. specialize (Q b Ib). apply andb_true_iff in Q. lia. }
  destruct (C27_answers cm (lit "bank/abn") 1) as [l C]. { rewrite (C26_crashes_iff ascii_lower ws [2]); [intros [? _]; discriminate|reflexivity|exact A|exact Ft]. }
  assert (C1 : Closest cm (lit "bank/abn") (match l with [] => [] | k :: _ => k end)) by (apply C27_Closest_first; eauto).
  destruct (C27_Closest_best _ _ _ _ _ _ A Ft C1) as [[I [Sh _]]|[_ N]].
  - destruct I as [I|[I|[]]]; [|rewrite I; exact C1]. exfalso. rewrite <- I in Sh. destruct Sh as [g [G1 G2]]. apply splitWord_gram in G1. apply splitWord_gram in G2. revert G1 G2. vm_compute. intuition (subst; discriminate).
  - exfalso. apply (N (lit "bank/ABN")); [right; left; reflexivity|]. destruct (gram_exists [2] (lit "bank/abn")) as [g G]. exists g. apply splitWord_gram in G. split; exact G.
Qed.
Print Assumptions C59_same_answers.
Print Assumptions C59_ascii_same_answers.
Print Assumptions C59_invalid_pieces_lost.
Print Assumptions C59_load_gives_saved.
Print Assumptions C59_save_load_ascii.
Print Assumptions C59_same_answers_refuted.
Print Assumptions C59_nil_means_saved_refuted.
Print Assumptions C59_greatest_survives.
Print Assumptions C59_failed_save.
Print Assumptions C59_undefined_word_crashes.
