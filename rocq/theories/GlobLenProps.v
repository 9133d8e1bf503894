(** * C65: the length a compiled glob reports. *)
From Coq Require Import String.
From Coq Require Import ZArith Arith List Bool Lia.
From Verif Require Import Utf8 GoStr GlobLex GlobMatch GlobCompile GlobSpec GlobIndexSpec GlobLenSpec GlobLen GlobFragment GlobProps3.
Import ListNotations.
Open Scope nat_scope.

(** Every compiled glob: if Len is known, every string in its language has that many characters (unless it contains alternatives of which
    only some have a known length). *)
Theorem C65_len p seps m : Globs p seps m -> even m -> len_right m.
Proof. intros [t [fuel [_ E]]]. apply built_len. exact (compile_f_built _ _ _ _ E). Qed.
(** So it is for a BTree made of parts that are right, whatever they are. *)
Theorem C65_btree v l r : len_right v -> (forall x, l = Some x -> len_right x) -> (forall x, r = Some x -> len_right x) -> len_right (NewBTree v l r).
Proof.
  intros Hv Hl Hr K b Vb Lb. unfold NewBTree, Len in K |- *. cbn [sem sLen] in K |- *. fold (Len v) in *. change (match l with Some l => sLen (sem l) | None => 0%Z end) with (olen l) in *. change (match r with Some r => sLen (sem r) | None => 0%Z end) with (olen r) in *.
  destruct (Z.eqb_spec (Len v) (-1)) as [|Kv]; [cbn in K; congruence|]. destruct (Z.eqb_spec (olen l) (-1)) as [|Kl]; [cbn in K; congruence|]. destruct (Z.eqb_spec (olen r) (-1)) as [|Kr]; [cbn in K; congruence|]. cbn [negb andb].
  cbn [NewBTree lang_of] in Lb. destruct Lb as [x [y [z [-> [Lx [Ly Lz]]]]]]. rewrite !Forall_app in Vb. destruct Vb as [Vx [Vy Vz]]. rewrite !app_length, !Nat2Z.inj_add. rewrite (Hv Kv y Vy Ly).
  assert (Hx : Z.of_nat (length x) = olen l) by (destruct l as [a|]; [exact (Hl a eq_refl Kl x Vx Lx)|subst x; reflexivity]). assert (Hz : Z.of_nat (length z) = olen r) by (destruct r as [a|]; [exact (Hr a eq_refl Kr z Vz Lz)|subst z; reflexivity]). lia.
Qed.
(** The lengths a BTree keeps of its sides, and its own, after all optimisations, are right; likewise the length of a row, whose members all have a known length.
    No intersection is empty. *)
Theorem C65_parts p seps m x : Globs p seps m -> inside x m ->
  match x with
  | MBTree v l r ll rl len => ll = olen l /\ rl = olen r /\ (len <> -1 -> len = olen l + Len v + olen r /\ Len v <> -1 /\ olen l <> -1 /\ olen r <> -1)%Z /\ (len = -1 -> Len v = -1 \/ olen l = -1 \/ olen r = -1)%Z
  | MRow ms len => len = fold_right (fun m n => Len m + n)%Z 0%Z ms /\ Forall (fun m => Len m <> (-1)%Z) ms
  | MEveryOf ms => ms <> []
  | _ => True
  end.
Proof.
  intros [t [fuel [_ E]]] I. pose proof (built_inside x m I (compile_f_built _ _ _ _ E)) as B. destruct B as [t0|e Ne| |e|l n|a b n| |n|n|t0 n|t0|t0|t0 e|t0 e|p0 q|ms F|ms N F|ms len F Fk ->|v l r ll rl len Bv Bl Br -> -> ->]; try exact Logic.I; [exact N|split; [reflexivity|exact Fk]|].
  split; [reflexivity|]. split; [reflexivity|]. unfold btree_len. assert (Lv : (-1 <= Len v)%Z) by exact (len_ge v Bv). assert (Ll : (-1 <= olen l)%Z) by (destruct l as [y|]; [exact (len_ge y (Bl y eq_refl))|cbn; lia]). assert (Lr : (-1 <= olen r)%Z) by (destruct r as [y|]; [exact (len_ge y (Br y eq_refl))|cbn; lia]).
  destruct (Z.eqb_spec (Len v) (-1)), (Z.eqb_spec (olen l) (-1)), (Z.eqb_spec (olen r) (-1)); cbn [negb andb]; split; intros H; try tauto; try congruence; try (split; [reflexivity|tauto]); lia.
Qed.
(** Alternatives of which only some have a known length: if the first is one without, the reported length is wrong. *)
Theorem C65_mixed_refuted : exists m, Globs (lit "{*,abc}") [] m /\ Len m = 3%Z /\ lang_of m (lit "x").
Proof.
  exists (MAnyOf [MSuper; MText (lit "abc")]). split; [exists (NPattern [NAnyOf [NPattern [NAny]; NPattern [NText (lit "abc")]]]), 9; split; vm_compute; reflexivity|]. split; [reflexivity|]. left. exact I.
Qed.
(** ** Non-vacuity *)
Example ex_len : exists m, Globs (lit "a?[0-9]{xy,zt}") [] m /\ even m /\ Len m = 5%Z.
Proof.
  eexists. split; [exists (NPattern [NText (lit "a"); NSingle; NRange false 48 57; NAnyOf [NPattern [NText (lit "xy")]; NPattern [NText (lit "zt")]]]), 9; split; vm_compute; reflexivity|]. split; [|reflexivity].
  cbn. repeat split; left; intros x [<-|[<-|[]]]; discriminate.
Qed.
Print Assumptions C65_len.
Print Assumptions C65_btree.
Print Assumptions C65_parts.
Print Assumptions C65_mixed_refuted.
