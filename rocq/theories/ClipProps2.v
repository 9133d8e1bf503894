(** * C56: what a read makes of any memory. *)
From Coq Require Import String.
From Coq Require Import ZArith NArith List Bool Lia Wf_nat.
From Verif Require Import Utf8 GoStr ClipModel ClipProps.
Import ListNotations.
Open Scope Z_scope.

(** The characters of a sequence of UTF-16 units (RFC 2781, section 2.2): a pair of surrogates is one character, a surrogate that is not in
    a pair counts as U+FFFD. *)
Inductive text_of : list Z -> list Z -> Prop :=
  | t_end : text_of [] []
  | t_plain u us rs : ~ (55296 <= u <= 57343) -> text_of us rs -> text_of (u :: us) (u :: rs)
  | t_pair h l us rs : 55296 <= h <= 56319 -> 56320 <= l <= 57343 -> text_of us rs -> text_of (h :: l :: us) ((h - 55296) * 1024 + (l - 56320) + 65536 :: rs)
  | t_high h us rs : 55296 <= h <= 56319 -> (forall l us', us = l :: us' -> ~ (56320 <= l <= 57343)) -> text_of us rs -> text_of (h :: us) (65533 :: rs)
  | t_low l us rs : 56320 <= l <= 57343 -> text_of us rs -> text_of (l :: us) (65533 :: rs).

Lemma decode_text u : text_of u (utf16_decode u).
Proof.
  induction u as [u IH] using (induction_ltof1 _ (@length Z)). unfold ltof in IH. destruct u as [|a t]; [constructor|]. cbn [utf16_decode].
  destruct (Z.leb_spec 55296 a), (Z.ltb_spec a 56320), (Z.leb_spec 56320 a), (Z.ltb_spec a 57344); cbn [andb]; try lia; try (apply t_plain; [lia|apply IH; cbn; lia]); try (apply t_low; [lia|apply IH; cbn; lia]).
  destruct t as [|b t]; [apply t_high; [lia|intros; discriminate|constructor]|].
  destruct (Z.leb_spec 56320 b), (Z.ltb_spec b 57344); cbn [andb]; try (apply t_high; [lia|intros l us' E; injection E as <- <-; lia|apply IH; cbn; lia]).
  apply t_pair; [lia|lia|]. apply IH. cbn. lia.
Qed.
Lemma until_zero_split u : exists rest, u = until_zero u ++ rest /\ ~ In 0 (until_zero u) /\ (rest = [] \/ exists r, rest = 0 :: r).
Proof.
  induction u as [|x u [rest [E [N H]]]]; [exists []; auto|]. cbn [until_zero]. destruct (Z.eqb_spec x 0) as [->|Nx]; [exists (0 :: u); split; [reflexivity|]; split; [intros []|right; eauto]|].
  exists rest. split; [cbn; congruence|]. split; [intros [I|I]; [congruence|contradiction]|exact H].
Qed.
Lemma read_units (W : nat) mem t : t = UTF16ToString (firstn W mem) -> exists units rest rs,
  mem = units ++ rest /\ ~ In 0 units /\ (length units <= W)%nat /\ (rest = [] \/ (exists r, rest = 0 :: r) \/ length units = W) /\ text_of units rs /\ t = utf8 rs.
Proof.
  intros ->. destruct (until_zero_split (firstn W mem)) as [rest [E [N H]]]. exists (until_zero (firstn W mem)), (rest ++ skipn W mem), (utf16_decode (until_zero (firstn W mem))).
  split; [rewrite app_assoc, <- E; symmetry; apply firstn_skipn|]. split; [exact N|].
  assert (L : (length (until_zero (firstn W mem)) + length rest = length (firstn W mem))%nat) by (rewrite E at 2; rewrite app_length; reflexivity). rewrite firstn_length in L.
  split; [lia|]. split; [|split; [apply decode_text|reflexivity]]. destruct H as [->|[r ->]]; [|right; left; exists (r ++ skipn W mem); reflexivity]. cbn [length] in L. cbn [app].
  destruct (Nat.lt_ge_cases (length mem) W) as [Hl|Hl]; [left; apply skipn_all2; lia|right; right; lia].
Qed.
(** Whatever the memory holds, a successful read returns the characters of its first 2^20 units, up to the first zero unit. *)
Theorem C56_any_units evs t l mem r e : runs ReadWin evs (OkText t) -> In (Look l mem, r, e) evs ->
  exists units rest rs, mem = units ++ rest /\ ~ In 0 units /\ (N.of_nat (length units) <= 2 ^ 20)%N /\
    (rest = [] \/ (exists r', rest = 0 :: r') \/ N.of_nat (length units) = (2 ^ 20)%N) /\ text_of units rs /\ t = utf8 rs.
Proof.
  intros R I. apply read_window with (2 := I) in R. apply read_units in R. destruct R as [units [rest [rs [E [N [L [H [T Et]]]]]]]]. exists units, rest, rs.
  assert (Wn : N.of_nat window = (2 ^ 20)%N) by (unfold window; rewrite N2Nat.id; reflexivity). set (W := window) in *. clearbody W.
  split; [exact E|]. split; [exact N|]. split; [lia|]. split; [|auto]. destruct H as [H|[H|H]]; [auto|auto|right; right; rewrite H; exact Wn].
Qed.
(** The characters are determined by the units. *)
Theorem C56_text_unique us rs1 rs2 : text_of us rs1 -> text_of us rs2 -> rs1 = rs2.
Proof.
  intros T1. revert rs2. induction T1 as [|u us rs H T IH|h l us rs H1 H2 T IH|h us rs H1 H2 T IH|l us rs H T IH]; intros rs2 T2; inversion T2; subst; try lia; try (f_equal; auto; fail).
  - match goal with H : forall l us', _ -> ~ _ |- _ => exfalso; eapply H; [reflexivity|lia] end.
  - exfalso. eapply H2; [reflexivity|lia].
Qed.
(** A read may find an unpaired surrogate at the end. *)
Example ex_lone : text_of [104; 55357; 56832; 55357] [104; 128512; 65533].
Proof.
  apply t_plain; [lia|]. change 128512 with ((55357 - 55296) * 1024 + (56832 - 56320) + 65536). apply t_pair; [lia|lia|]. apply t_high; [lia|intros; discriminate|constructor].
Qed.
Example ex_read_any mem : exists evs t e, runs ReadWin evs (OkText t) /\ In (Look 5 mem, 0, e) evs.
Proof.
  exists [(IsAvailable, 1, 0); (OpenC, 1, 0); (GetData, 3, 0); (Lock 3, 5, 0); (Look 5 mem, 0, 0); (Unlock 3, 1, 0); (CloseC, 1, 0)], (UTF16ToString (firstn window mem)), 0. split; [|cbn; auto 9].
  unfold ReadWin. set (W := window). clearbody W. apply (r_do _ _ 1 0). cbv beta. cbn [Z.eqb]. apply (r_wait _ [(OpenC, 1, 0)] None); [apply w_open; discriminate|].
  apply (r_do _ _ 3 0). cbv beta. cbn [Z.eqb]. apply (r_do _ _ 5 0). cbv beta. cbn [Z.eqb]. apply r_peek. apply (r_do _ _ 1 0). cbv beta. cbn [Z.eqb]. apply (r_do _ _ 1 0). cbv beta. cbn [Z.eqb]. apply r_ret.
Qed.
Print Assumptions C56_any_units.
Print Assumptions C56_text_unique.
