(** * Theorems C48: the searches for any of several characters (glob/util/strings). *)
From Coq Require Import String.
From Coq Require Import ZArith Arith List Bool Lia.
From Verif Require Import Utf8 GoStr GlobLex GlobMatch GlobSpec GlobSem GlobText GlobIndexSpec GlobIndex GlobIndex2.
Import ListNotations.
Open Scope nat_scope.

(** ** Vocabulary: cs is a text, rs the characters looked for, in their order *)
(** r is the first of rs that occurs in cs at all. *)
Definition first_present (cs rs : list Z) (r : Z) : Prop :=
  exists before after, rs = before ++ r :: after /\ In r cs /\ Forall (fun x => ~ In x cs) before.
(** The byte position of the first (last) r in cs. *)
Definition first_at (cs : list Z) (r : Z) (i : nat) : Prop := exists a b, cs = a ++ r :: b /\ ~ In r a /\ i = length (utf8 a).
Definition last_at (cs : list Z) (r : Z) (i : nat) : Prop := exists a b, cs = a ++ r :: b /\ ~ In r b /\ i = length (utf8 a).

Lemma present_cons cs r rs x : ~ In r cs -> first_present cs rs x -> first_present cs (r :: rs) x.
Proof. intros N [b [a [-> [I F]]]]. exists (r :: b), a. split; [reflexivity|]. split; [exact I|constructor; assumption]. Qed.
Lemma present_here cs r rs : In r cs -> first_present cs (r :: rs) r.
Proof. intros I. exists [], rs. auto. Qed.

(** A number that is no character occurs in no text, and is not found. *)
Lemma index_rune_any cs r : Forall valid_rune cs ->
  match index_rune (utf8 cs) r with Some i => exists a b, cs = a ++ [r] ++ b /\ i = length (utf8 a) /\ ~ In r a | None => ~ In r cs end.
Proof.
  intros Vc. destruct (((r <? 0) || (r >? 1114111) || surrogate r)%Z) eqn:I.
  - assert (N : ~ valid_rune r).
    { intros [B Su]. rewrite Su, orb_false_r in I. destruct (Z.ltb_spec r 0); [lia|]. rewrite Z.gtb_ltb in I. destruct (Z.ltb_spec 1114111 r); [lia|discriminate]. }
    unfold index_rune. rewrite I. destruct (((0 <=? r) && (r <? 128))%Z) eqn:A.
    + exfalso. apply N. rewrite andb_true_iff, Z.leb_le, Z.ltb_lt in A. split; [lia|]. unfold surrogate, in_range. destruct (Z.leb_spec 55296 r); [lia|reflexivity].
    + destruct (Z.eqb_spec r RuneError) as [->|]; [discriminate I|]. intros J. rewrite Forall_forall in Vc. apply N, Vc, J.
  - apply index_rune_utf8; [exact Vc|]. apply orb_false_iff in I. destruct I as [I Su]. apply orb_false_iff in I. rewrite Z.gtb_ltb, !Z.ltb_ge in I. split; [lia|exact Su].
Qed.

(** IndexAnyRunes: not the first character of the text that is one of rs, but the first place of the first of rs that occurs. *)
Theorem C48_index_any_runes : forall cs rs, Forall valid_rune cs ->
  match IndexAnyRunes (utf8 cs) rs with
  | Some i => exists r, first_present cs rs r /\ first_at cs r i
  | None => Forall (fun r => ~ In r cs) rs
  end.
Proof.
  intros cs rs Vc. induction rs as [|r rs IH]; [constructor|]. cbn [IndexAnyRunes].
  pose proof (index_rune_any cs r Vc) as H. destruct (index_rune (utf8 cs) r) as [i|].
  - destruct H as [a [b [E [-> N]]]]. exists r. split; [apply present_here; rewrite E; apply in_or_app; right; left; reflexivity|]. exists a, b. auto.
  - destruct (IndexAnyRunes (utf8 cs) rs) as [i|]; [|constructor; assumption].
    destruct IH as [x [P A]]. exists x. split; [apply present_cons; assumption|exact A].
Qed.
Print Assumptions C48_index_any_runes.

Lemma cut_loop_mod j : forall fuel n, n < fuel -> cut_loop fuel n j = true <-> n mod S j = 0.
Proof.
  induction fuel as [|f IH]; intros n L; [lia|]. cbn [cut_loop]. destruct (Nat.eqb_spec n 0) as [->|N0]; [split; [intros _; apply Nat.mod_0_l; lia|reflexivity]|].
  destruct (Nat.ltb_spec n (S j)) as [S1|S1].
  - rewrite Nat.mod_small by exact S1. split; [discriminate|contradiction].
  - rewrite IH by lia. replace n with ((n - S j) + 1 * S j) at 2 by lia. rewrite Nat.mod_add by lia. reflexivity.
Qed.

(** LastIndexAnyRunes, again for the first of rs that occurs: its last place if it is ASCII ... *)
Theorem C48_last_index_any_runes : forall cs rs, Forall valid_rune cs ->
  (LastIndexAnyRunes (utf8 cs) rs = Some None <-> Forall (fun r => ~ In r cs) rs)
  /\ forall r, first_present cs rs r ->
     ((r < 128)%Z -> exists i, last_at cs r i /\ LastIndexAnyRunes (utf8 cs) rs = Some (Some i))
     (* ... and its first place if it is not, or a panic, depending on the length of the text *)
     /\ ((128 <= r)%Z -> exists i, first_at cs r i /\ LastIndexAnyRunes (utf8 cs) rs = if length (utf8 cs) mod S i =? 0 then Some (Some i) else None).
Proof.
  intros cs rs Vc. assert (U : forall x y, first_present cs rs x -> first_present cs rs y -> x = y).
  { intros x y [b [a [E [I F]]]] [b' [a' [E' [I' F']]]]. subst rs. revert b' E' F'. induction b as [|z b IH]; intros b' E' F'.
    - destruct b' as [|w b']; [injection E' as E' _; exact E'|]. injection E' as <- _. inversion F'; contradiction.
    - inversion F as [|? ? Nz Fb]; subst. destruct b' as [|w b']; [injection E' as -> _; contradiction|]. injection E' as <- E'. inversion F'; subst.
      apply (IH Fb b' E'). assumption. }
  assert (K : match LastIndexAnyRunes (utf8 cs) rs with
              | Some None => Forall (fun r => ~ In r cs) rs
              | o => exists r, first_present cs rs r
                /\ ((r < 128)%Z -> exists i, last_at cs r i /\ o = Some (Some i))
                /\ ((128 <= r)%Z -> exists i, first_at cs r i /\ o = if length (utf8 cs) mod S i =? 0 then Some (Some i) else None)
              end).
  { clear U. induction rs as [|r rs IH]; [constructor|]. cbn [LastIndexAnyRunes].
    assert (Next : ~ In r cs -> match LastIndexAnyRunes (utf8 cs) rs with
              | Some None => Forall (fun r => ~ In r cs) (r :: rs)
              | o => exists r', first_present cs (r :: rs) r'
                /\ ((r' < 128)%Z -> exists i, last_at cs r' i /\ o = Some (Some i))
                /\ ((128 <= r')%Z -> exists i, first_at cs r' i /\ o = if length (utf8 cs) mod S i =? 0 then Some (Some i) else None)
              end).
    { intros N. destruct (LastIndexAnyRunes (utf8 cs) rs) as [[i|]|]; [|constructor; assumption|]; destruct IH as [x [P A]]; exists x; (split; [apply present_cons; assumption|exact A]). }
    destruct (((0 <=? r) && (r <? 128))%Z) eqn:A.
    - rewrite andb_true_iff, Z.leb_le, Z.ltb_lt in A. assert (V : valid_rune r) by (split; [lia|unfold surrogate, in_range; destruct (Z.leb_spec 55296 r); [lia|reflexivity]]).
      pose proof (last_occ cs r Vc V) as H. rewrite encode_ascii' in H by exact A.
      destruct (last_index_of (utf8 cs) [r]) as [i|]; [|apply Next, H]. destruct H as [a [b [E [-> N]]]]. exists r.
      split; [apply present_here; rewrite E; apply in_or_app; right; left; reflexivity|]. split; [|lia]. intros _. exists (length (utf8 a)). split; [|reflexivity]. exists a, b. auto.
    - pose proof (index_rune_any cs r Vc) as H1. destruct (index_rune (utf8 cs) r) as [j|]; [|apply Next, H1].
      destruct H1 as [a [b [E [-> N]]]]. assert (128 <= r)%Z.
      { rewrite Forall_forall in Vc. destruct (Vc r) as [B _]; [rewrite E; apply in_or_app; right; left; reflexivity|]. apply andb_false_iff in A. rewrite Z.leb_gt, Z.ltb_ge in A. lia. } pose proof (cut_loop_mod (length (utf8 a)) (S (length (utf8 cs))) (length (utf8 cs)) ltac:(lia)) as C.
      assert (Z0 : length (utf8 cs) <> 0).
      { rewrite E, utf8_app, app_length. pose proof (utf8_longer a ([r] ++ b) ltac:(discriminate)) as Q. rewrite utf8_app, app_length in Q. cbn in *. lia. }
      rewrite (proj2 (Nat.eqb_neq _ _) Z0).
      assert (Pr : first_present cs (r :: rs) r) by (apply present_here; rewrite E; apply in_or_app; right; left; reflexivity).
      assert (Fa : first_at cs r (length (utf8 a))) by (exists a, b; auto).
      destruct (cut_loop _ _ _) eqn:CL; (exists r; split; [exact Pr|]; split; [lia|]; intros _; exists (length (utf8 a)); split; [exact Fa|]).
      + rewrite (proj2 (Nat.eqb_eq _ _) (proj1 C eq_refl)). reflexivity.
      + destruct (Nat.eqb_spec (length (utf8 cs) mod S (length (utf8 a))) 0) as [Q|]; [apply C in Q; discriminate|reflexivity]. }
  split.
  - split.
    + intros E. rewrite E in K. exact K.
    + intros F. destruct (LastIndexAnyRunes (utf8 cs) rs) as [[i|]|]; [|reflexivity|]; destruct K as [r [[b [a [E [I _]]]] _]]; exfalso; rewrite Forall_forall in F; apply (F r); try exact I;
        rewrite E; apply in_or_app; right; left; reflexivity.
  - intros r P. destruct (LastIndexAnyRunes (utf8 cs) rs) as [[i|]|]; try (destruct K as [x [Px A]]; rewrite (U r x P Px); exact A).
    exfalso. destruct P as [b [a [E [I _]]]]. rewrite Forall_forall in K. apply (K r); [rewrite E; apply in_or_app; right; left; reflexivity|exact I].
Qed.
Print Assumptions C48_last_index_any_runes.

(** So with a separator that is not ASCII it may give the first place for the last, or panic. *)
Theorem C48_last_index_any_runes_refuted :
  (exists cs r i j, first_at cs r i /\ last_at cs r j /\ i < j /\ LastIndexAnyRunes (utf8 cs) [r] = Some (Some i))
  /\ exists cs r, In r cs /\ LastIndexAnyRunes (utf8 cs) [r] = None.
Proof.
  split.
  - exists [233; 97; 233]%Z, 233%Z, 0, 3. split; [exists [], [97; 233]%Z; repeat split; cbn; tauto|]. split; [exists [233; 97]%Z, []; repeat split; cbn; tauto|]. split; [lia|vm_compute; reflexivity].
  - exists [97; 233]%Z, 233%Z. split; [cbn; tauto|vm_compute; reflexivity].
Qed.
Print Assumptions C48_last_index_any_runes_refuted.

(** ** Non-vacuity *)
Example any_runes_example : let cs := [97; 47; 98; 46; 99; 47]%Z in Forall valid_rune cs /\ first_present cs [58; 46; 47]%Z 46%Z /\ first_at cs 46%Z 3 /\ last_at cs 47%Z 5
  /\ IndexAnyRunes (utf8 cs) [58; 46; 47]%Z = Some 3 /\ LastIndexAnyRunes (utf8 cs) [47; 46]%Z = Some (Some 5).
Proof.
  cbv zeta. split; [repeat constructor; cbn; lia|]. split; [exists [58]%Z, [47]%Z; split; [reflexivity|]; split; [cbn; tauto|]; repeat constructor; cbn; intuition discriminate|].
  split; [exists [97; 47; 98]%Z, [99; 47]%Z; repeat split; cbn; intuition discriminate|]. split; [exists [97; 47; 98; 46; 99]%Z, []; repeat split; cbn; tauto|]. split; vm_compute; reflexivity.
Qed.
