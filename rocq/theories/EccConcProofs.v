(** * Proofs about calls of ECC at the same time. *)
From Coq Require Import NArith Arith List Bool Lia.
From Verif Require Import Gf256Model EccConc.
Import ListNotations.
Open Scope nat_scope.

(** ** Lists *)
Lemma set_nth_length {A} (l : list A) : forall i x, length (set_nth l i x) = length l.
Proof. induction l as [|y l IH]; intros [|i] x; cbn; auto. Qed.
Lemma set_nth_here {A} (l : list A) : forall i x, i < length l -> nth_error (set_nth l i x) i = Some x.
Proof. induction l as [|y l IH]; intros [|i] x H; cbn in *; try lia; [reflexivity|]. apply IH. lia. Qed.
Lemma set_nth_other {A} (l : list A) : forall i j x, i <> j -> nth_error (set_nth l i x) j = nth_error l j.
Proof. induction l as [|y l IH]; intros [|i] [|j] x H; cbn; try reflexivity; try lia. apply IH. lia. Qed.
Lemma set_nth_mid {A} (pre : list A) x y r : set_nth (pre ++ x :: r) (length pre) y = pre ++ y :: r.
Proof. induction pre as [|z pre IH]; [reflexivity|]. cbn. rewrite IH. reflexivity. Qed.
Lemma nth_mid {A} (pre : list A) x r : nth_error (pre ++ x :: r) (length pre) = Some x.
Proof. rewrite nth_error_app2, Nat.sub_diag by lia. reflexivity. Qed.

(** ** A goroutine that alone knows its array *)
Section Alone.
  Variable R : list N -> Prop.
  (** It has its answer, and only rs.p is still to be written. *)
  Inductive ending : prog -> Prop :=
  | en_done ch : R ch -> ending (Done ch)
  | en_len n k : ending k -> ending (SetLen n k)
  | en_ptr a k : ending k -> ending (SetPtr a k)
  | en_either p q : ending p -> ending q -> ending (Either p q).
  (** With buf in array a it will get an answer in R if nobody else changes the array. *)
  Inductive gives (a : nat) : prog -> list N -> Prop :=
  | gi_end p buf : ending p -> gives a p buf
  | gi_load i k buf v : nth_error buf i = Some v -> gives a (k v) buf -> gives a (Load a i k) buf
  | gi_save i v k buf : i < length buf -> gives a k (set_nth buf i v) -> gives a (Save a i v k) buf.

  Lemma gives_copy_in a k L : forall d pre rest, length d <= length rest -> L = length pre + length rest ->
    gives a k (pre ++ d ++ skipn (length d) rest) -> gives a (copy_in (Some a, L) (length pre) d k) (pre ++ rest).
  Proof.
    induction d as [|x d IH]; intros pre rest Ld EL G; [exact G|]. destruct rest as [|y rest]; [cbn in Ld; lia|]. cbn [length] in *. cbn [copy_in snd]. unfold save. cbn [fst snd]. destruct (Nat.ltb_spec (length pre) L); [|lia].
    apply gi_save; [rewrite app_length; cbn; lia|]. rewrite set_nth_mid. replace (pre ++ x :: rest) with ((pre ++ [x]) ++ rest) by (rewrite <- app_assoc; reflexivity). replace (S (length pre)) with (length (pre ++ [x])) by (rewrite app_length; cbn; lia).
    apply IH; [lia|rewrite app_length; cbn; lia|]. rewrite <- app_assoc. exact G.
  Qed.
  Lemma gives_pad a k L : forall s pre rest, s = length rest -> L = length pre + length rest ->
    gives a k (pre ++ repeat 0%N s) -> gives a (pad (Some a, L) (length pre) s k) (pre ++ rest).
  Proof.
    induction s as [|s IH]; intros pre rest Es EL G; (destruct rest as [|y rest]; cbn [length] in *; try lia); [exact G|]. cbn [pad]. unfold save. cbn [fst snd]. destruct (Nat.ltb_spec (length pre) L); [|lia].
    apply gi_save; [rewrite app_length; cbn; lia|]. rewrite set_nth_mid. replace (pre ++ 0%N :: rest) with ((pre ++ [0%N]) ++ rest) by (rewrite <- app_assoc; reflexivity). replace (S (length pre)) with (length (pre ++ [0%N])) by (rewrite app_length; cbn; lia).
    apply IH; [lia|rewrite app_length; cbn; lia|]. rewrite <- app_assoc. exact G.
  Qed.
  Lemma gives_inner a k L f lc : forall lg pre q, length lg <= length q -> L = length pre + length q ->
    gives a k (pre ++ ecc_inner (f_exp f) lc lg q) -> gives a (inner f lc (Some a, L) (length pre) lg k) (pre ++ q).
  Proof.
    induction lg as [|l lg IH]; intros pre q Ll EL G; [destruct q; exact G|]. destruct q as [|x q]; [cbn in Ll; lia|]. cbn [length] in *. cbn [inner ecc_inner] in *. unfold load, save. cbn [fst snd]. destruct (Nat.ltb_spec (length pre) L); [|lia].
    assert (Nx : forall y, gives a k (pre ++ y :: ecc_inner (f_exp f) lc lg q) -> gives a (inner f lc (Some a, L) (S (length pre)) lg k) (pre ++ y :: q)).
    { intros y G'. replace (pre ++ y :: q) with ((pre ++ [y]) ++ q) by (rewrite <- app_assoc; reflexivity). replace (S (length pre)) with (length (pre ++ [y])) by (rewrite app_length; cbn; lia). apply IH; [lia|rewrite app_length; cbn; lia|]. rewrite <- app_assoc. exact G'. }
    destruct (l =? 255)%N; [apply Nx; exact G|]. apply (gi_load a _ _ _ x); [apply nth_mid|]. apply gi_save; [rewrite app_length; cbn; lia|]. rewrite set_nth_mid. apply Nx. exact G.
  Qed.
  Lemma inner_length exp lc : forall lg q, length lg <= length q -> length (ecc_inner exp lc lg q) = length q.
  Proof. induction lg as [|l lg IH]; intros [|x q] H; cbn in *; try reflexivity; try lia. rewrite IH by lia. reflexivity. Qed.
  Lemma outer_length f lg : forall s p, s + length lg <= length p -> length (ecc_outer f lg s p) = length p.
  Proof. induction s as [|s IH]; intros [|c p] H; cbn in *; try reflexivity; try lia. destruct (c =? 0)%N; cbn [length]; rewrite IH; rewrite ?inner_length; lia. Qed.
  Lemma gives_outer a k L f lg : forall s pre p, s + length lg <= length p -> L = length pre + length p ->
    gives a k (pre ++ ecc_outer f lg s p) -> gives a (outer f lg (Some a, L) (length pre) s k) (pre ++ p).
  Proof.
    induction s as [|s IH]; intros pre p Lp EL G; [destruct p; exact G|]. destruct p as [|c q]; [cbn in Lp; lia|]. cbn [length] in *. cbn [outer]. unfold load. cbn [fst snd]. destruct (Nat.ltb_spec (length pre) L); [|lia].
    apply (gi_load a _ _ _ c); [apply nth_mid|]. cbn [ecc_outer] in G.
    assert (Nx : forall q', length q' = length q -> gives a k (pre ++ c :: ecc_outer f lg s q') -> gives a (outer f lg (Some a, L) (S (length pre)) s k) (pre ++ c :: q')).
    { intros q' Lq G'. replace (pre ++ c :: q') with ((pre ++ [c]) ++ q') by (rewrite <- app_assoc; reflexivity). replace (S (length pre)) with (length (pre ++ [c])) by (rewrite app_length; cbn; lia). apply IH; [lia|rewrite app_length; cbn; lia|]. rewrite <- app_assoc. exact G'. }
    destruct (c =? 0)%N; [apply Nx; [reflexivity|exact G]|]. replace (pre ++ c :: q) with ((pre ++ [c]) ++ q) by (rewrite <- app_assoc; reflexivity). replace (S (length pre)) with (length (pre ++ [c])) at 1 by (rewrite app_length; cbn; lia).
    apply gives_inner; [lia|rewrite app_length; cbn; lia|]. rewrite <- app_assoc. apply Nx; [apply inner_length; lia|exact G].
  Qed.
  Lemma gives_copy_out a k L : forall rest pre done r, L = length pre + length r ->
    gives a (k (done ++ copy rest r)) (pre ++ r) -> gives a (copy_out (Some a, L) (length pre) done rest k) (pre ++ r).
  Proof.
    induction rest as [|y rest IH]; intros pre done r EL G; cbn [copy_out].
    - unfold copy in G. cbn [length firstn] in G. rewrite skipn_nil, !app_nil_r in G. exact G.
    - destruct r as [|x r]; cbn [snd].
      + destruct (Nat.ltb_spec (length pre) L); [cbn in EL; lia|]. exact G.
      + unfold load. cbn [fst snd]. cbn [length] in EL. destruct (Nat.ltb_spec (length pre) L); [|lia]. apply (gi_load a _ _ _ x); [apply nth_mid|].
        replace (pre ++ x :: r) with ((pre ++ [x]) ++ r) in * by (rewrite <- app_assoc; reflexivity). replace (S (length pre)) with (length (pre ++ [x])) by (rewrite app_length; cbn; lia). apply IH; [rewrite app_length; cbn; lia|].
        rewrite <- app_assoc. exact G.
  Qed.
  Lemma gives_after a f (lg dat chk : list N) L (buf : list N) : length buf = L -> length dat + length (tl lg) <= L ->
    R (copy chk (skipn (length dat) (ecc_outer f (tl lg) (length dat) buf))) ->
    gives a (outer f (tl lg) (Some a, L) 0 (length dat) (if length dat <=? L then copy_out (Some a, L) (length dat) [] chk (fun ch => store (Some a, L) (Done ch)) else Crash)) buf.
  Proof.
    intros LB HL H. apply (gives_outer a _ L f (tl lg) (length dat) [] buf); [lia|cbn; lia|]. cbn [app].
    destruct (Nat.leb_spec (length dat) L); [|lia]. pose proof (outer_length f (tl lg) (length dat) buf ltac:(lia)) as LO. set (o := ecc_outer _ _ _ _) in *.
    assert (X : forall F Q n, length F = n -> length F + length Q = L -> R (copy chk Q) -> gives a (copy_out (Some a, L) n [] chk (fun ch => store (Some a, L) (Done ch))) (F ++ Q)).
    { intros F Q n <- EL HR. apply gives_copy_out; [lia|]. apply gi_end. unfold store. repeat constructor; exact HR. }
    rewrite <- (firstn_skipn (length dat) o). apply X; [rewrite firstn_length; lia|rewrite firstn_length, skipn_length; lia|exact H].
  Qed.
  Lemma gives_divide a f (lg dat chk : list N) L (buf : list N) : length buf = L -> length dat + length (tl lg) <= L ->
    R (copy chk (skipn (length dat) (ecc_outer f (tl lg) (length dat) (dat ++ repeat 0%N (L - length dat))))) -> gives a (divide f lg dat chk (Some a, L)) buf.
  Proof.
    intros LB HL H. unfold divide. cbn [snd]. apply (gives_copy_in a _ L dat [] buf); [lia|cbn; lia|]. cbn [app].
    apply gives_pad; [rewrite skipn_length; lia|rewrite skipn_length; lia|]. apply gives_after; [rewrite app_length, repeat_length; lia|exact HL|exact H].
  Qed.
End Alone.

(** ** What a goroutine does not touch *)
(** It never uses array b unless it reads a pointer to it from rs.p or makes it. *)
Fixpoint avoids (b : nat) (p : prog) : Prop :=
  match p with
  | Done _ | Crash | Wild => True
  | GetLen k => forall l, avoids b (k l)
  | GetPtr k => forall o, o <> Some b -> avoids b (k o)
  | SetLen _ k => avoids b k
  | SetPtr o k => o <> Some b /\ avoids b k
  | Make _ k => forall a, a <> b -> avoids b (k a)
  | Load a _ k => a <> b /\ forall v, avoids b (k v)
  | Save a _ _ k => a <> b /\ avoids b k
  | Either p q => avoids b p /\ avoids b q
  end.
(** The lengths and pointers it stores are in Lp and Pp as long as those it reads are. *)
Fixpoint keeps (Lp : nat -> Prop) (Pp : option nat -> Prop) (p : prog) : Prop :=
  match p with
  | Done _ | Crash | Wild => True
  | GetLen k => forall l, Lp l -> keeps Lp Pp (k l)
  | GetPtr k => forall o, Pp o -> keeps Lp Pp (k o)
  | SetLen n k => Lp n /\ keeps Lp Pp k
  | SetPtr o k => Pp o /\ keeps Lp Pp k
  | Make _ k => forall a, keeps Lp Pp (k a)
  | Load _ _ k => forall v, keeps Lp Pp (k v)
  | Save _ _ _ k => keeps Lp Pp k
  | Either p q => keeps Lp Pp p /\ keeps Lp Pp q
  end.
(** A property of programs that holds of a call if it holds of what follows. *)
Section Frame.
  Variable P : prog -> Prop.
  Variable p : slice.
  Hypothesis Pcrash : P Crash.
  Hypothesis Pload : forall i k, (forall v, P (k v)) -> P (load p i k).
  Hypothesis Psave : forall i v k, P k -> P (save p i v k).
  Lemma fr_copy_in k : P k -> forall d i, P (copy_in p i d k).
  Proof. intros H. induction d as [|x d IH]; intros i; cbn [copy_in]; [exact H|]. destruct (i <? snd p); [apply Psave, IH|exact H]. Qed.
  Lemma fr_pad k : P k -> forall s i, P (pad p i s k).
  Proof. intros H. induction s as [|s IH]; intros i; cbn [pad]; [exact H|]. apply Psave, IH. Qed.
  Lemma fr_inner f lc k : P k -> forall lg i, P (inner f lc p i lg k).
  Proof. intros H. induction lg as [|l lg IH]; intros i; cbn [inner]; [exact H|]. destruct (l =? 255)%N; [apply IH|]. apply Pload. intros x. apply Psave, IH. Qed.
  Lemma fr_outer f lg k : P k -> forall s i, P (outer f lg p i s k).
  Proof. intros H. induction s as [|s IH]; intros i; cbn [outer]; [exact H|]. apply Pload. intros c. destruct (c =? 0)%N; [apply IH|apply fr_inner, IH]. Qed.
  Lemma fr_copy_out k : (forall ch, P (k ch)) -> forall rest i done, P (copy_out p i done rest k).
  Proof. intros H. induction rest as [|y rest IH]; intros i done; cbn [copy_out]; [apply H|]. destruct (i <? snd p); [|apply H]. apply Pload. intros x. apply IH. Qed.
  Lemma fr_divide f lg dat chk : (forall ch, P (store p (Done ch))) -> P (divide f lg dat chk p).
  Proof. intros H. unfold divide. apply fr_copy_in, fr_pad, fr_outer. destruct (_ <=? _); [|exact Pcrash]. apply fr_copy_out. exact H. Qed.
End Frame.
Lemma divide_avoids b f lg dat chk p : fst p <> Some b -> avoids b (divide f lg dat chk p).
Proof.
  intros N. apply fr_divide; [exact I| | |intros ch; cbn; auto]; unfold load, save; intros; destruct (_ <? _); try exact I; destruct p as [[a|] l]; cbn in *; try exact I; split; auto; intros ->; apply N; reflexivity.
Qed.
Lemma ecc_avoids b f c lg dat chk : avoids b (ecc f c lg dat chk).
Proof.
  unfold ecc. destruct (_ <? _); [exact I|]. destruct (c =? 0); [exact I|]. cbn [avoids]. intros l. destruct (_ <=? l).
  - unfold fetch. cbn [avoids]. split; intros; apply divide_avoids; assumption.
  - cbn [avoids]. intros a N. apply divide_avoids. cbn. congruence.
Qed.
Lemma divide_keeps (Lp : nat -> Prop) (Pp : option nat -> Prop) f lg dat chk p : Lp (snd p) -> Pp (fst p) -> keeps Lp Pp (divide f lg dat chk p).
Proof.
  intros HL HP. apply fr_divide; [exact I| | |intros ch; cbn; auto]; unfold load, save; intros; destruct (_ <? _); try exact I; destruct (fst p); cbn; auto.
Qed.
Lemma ecc_keeps (Lp : nat -> Prop) (Pp : option nat -> Prop) f c lg dat chk : Lp (length dat + c) -> (forall a, Pp (Some a)) -> keeps Lp Pp (ecc f c lg dat chk).
Proof.
  intros HL HP. unfold ecc. destruct (_ <? _); [exact I|]. destruct (c =? 0); [exact I|]. cbn [keeps]. intros l Hl. destruct (_ <=? l).
  - unfold fetch. cbn [keeps]. split; intros; apply divide_keeps; assumption.
  - cbn [keeps]. intros a. apply divide_keeps; [exact HL|apply HP].
Qed.

(** ** One step *)
Lemma put_same {A} (f : nat -> A) i x : put f i x i = x.
Proof. unfold put. rewrite Nat.eqb_refl. reflexivity. Qed.
Lemma put_other {A} (f : nat -> A) i j x : j <> i -> put f i x j = f j.
Proof. intros N. unfold put. destruct (Nat.eqb_spec j i); [contradiction|reflexivity]. Qed.
Lemma act_grow e w p w' p' : act e w p w' p' -> p' <> Wild -> length (arrays w) <= length (arrays w').
Proof. intros A N. destruct A; cbn [arrays]; rewrite ?app_length, ?set_nth_length; cbn; try lia. contradiction. Qed.
Lemma act_avoids e w p w' p' b : act e w p w' p' -> p' <> Wild -> avoids b p -> e_ptr (encs w e) <> Some b -> (b < length (arrays w) \/ length (arrays w') <= b) -> avoids b p'.
Proof.
  intros A N H Hp Hb. destruct A; cbn [avoids arrays] in *; try exact I; try tauto; try (apply H; auto; fail); try (apply (proj2 H)).
  apply H. rewrite app_length in Hb. cbn in Hb. lia.
Qed.
Lemma act_heap e w p w' p' b : act e w p w' p' -> p' <> Wild -> avoids b p -> b < length (arrays w) -> nth_error (arrays w') b = nth_error (arrays w) b.
Proof.
  intros A N H Hb. destruct A; cbn [arrays avoids] in *; try reflexivity; try contradiction.
  - apply nth_error_app1. exact Hb.
  - apply set_nth_other. exact (proj1 H).
Qed.
Lemma act_encs e w p w' p' : act e w p w' p' -> p' <> Wild -> forall e', e' <> e -> encs w' e' = encs w e'.
Proof. intros A N e' Ne. destruct A; cbn [encs]; try reflexivity; try contradiction; apply put_other; exact Ne. Qed.
Lemma act_ptr e w p w' p' b : act e w p w' p' -> p' <> Wild -> avoids b p -> (forall e', e_ptr (encs w e') <> Some b \/ e' <> e) -> forall e', e_ptr (encs w e') <> Some b -> e_ptr (encs w' e') <> Some b.
Proof.
  intros A N H _ e' Hp. destruct (Nat.eq_dec e' e) as [->|Ne]; [|rewrite (act_encs _ _ _ _ _ A N _ Ne); exact Hp]. destruct A; cbn [encs avoids] in *; try exact Hp; try contradiction; rewrite put_same; cbn; tauto.
Qed.
Lemma act_keeps e w p w' p' Lp Pp : act e w p w' p' -> p' <> Wild -> keeps Lp Pp p -> Lp (e_len (encs w e)) -> Pp (e_ptr (encs w e)) ->
  keeps Lp Pp p' /\ Lp (e_len (encs w' e)) /\ Pp (e_ptr (encs w' e)).
Proof. intros A N H HL HP. destruct A; cbn [encs keeps] in *; try contradiction; rewrite ?put_same; cbn; intuition. Qed.
Lemma act_ending R e w p w' p' : act e w p w' p' -> ending R p -> ending R p'.
Proof. intros A H. destruct A; inversion H; subst; assumption. Qed.
Lemma ending_fine R p : ending R p -> p <> Wild /\ p <> Crash.
Proof. intros H. destruct H; split; discriminate. Qed.
Lemma act_gives R a e w p w' p' buf : act e w p w' p' -> gives R a p buf -> nth_error (arrays w) a = Some buf ->
  ending R p' \/ (encs w' = encs w /\ exists buf', nth_error (arrays w') a = Some buf' /\ length buf' = length buf /\ gives R a p' buf').
Proof.
  intros A G Hb. inversion G as [q b0 En|i k b0 v Hv G'|i v k b0 Hi G']; subst; [left; exact (act_ending _ _ _ _ _ _ A En)| |]; right.
  - inversion A; subst; try congruence. split; [reflexivity|]. exists buf. replace v0 with v by congruence. auto.
  - inversion A; subst; try congruence.
    + split; [reflexivity|]. cbn [arrays]. assert (buf0 = buf) by congruence. subst. exists (set_nth buf i v). split; [apply set_nth_here, nth_error_Some; congruence|]. split; [apply set_nth_length|exact G'].
    + assert (buf0 = buf) by congruence. subst. lia.
Qed.
Lemma gives_fine R a p buf : gives R a p buf -> p <> Wild /\ p <> Crash.
Proof. intros H. destruct H as [q b En| |]; [exact (ending_fine _ _ En)| |]; split; discriminate. Qed.

(** ** The beginning of a call *)
Section Begin.
  Variable R : list N -> Prop.
  Variable Lp : nat -> Prop.
  Variable Pp : option nat -> Prop.
  Variable use : option (nat * list N).
  Inductive begins : prog -> Prop :=
  | be_len k : (forall l, Lp l -> begins (k l)) -> begins (GetLen k)
  | be_ptr k : (forall o, Pp o -> begins (k o)) -> begins (GetPtr k)
  | be_either p q : begins p -> begins q -> begins (Either p q)
  | be_make n k : (forall a, gives R a (k a) (repeat 0%N n)) -> begins (Make n k)
  | be_use a buf p : use = Some (a, buf) -> gives R a p buf -> begins p
  | be_end p : ending R p -> begins p.
  Lemma begins_fine p : begins p -> p <> Wild /\ p <> Crash.
  Proof. intros H. destruct H as [| | | |a buf p E G|p E]; try (split; discriminate); [exact (gives_fine _ _ _ _ G)|exact (ending_fine _ _ E)]. Qed.
  Lemma act_begins e w p w' p' : act e w p w' p' -> begins p -> Lp (e_len (encs w e)) -> Pp (e_ptr (encs w e)) -> (forall a buf, use = Some (a, buf) -> nth_error (arrays w) a = Some buf) ->
    ending R p' \/ (begins p' /\ w' = w) \/ (encs w' = encs w /\ exists a buf, nth_error (arrays w') a = Some buf /\ gives R a p' buf /\ (a = length (arrays w) \/ exists buf0, use = Some (a, buf0))).
  Proof.
    intros A B HL HP HU. destruct B as [k H|k H|p q H1 H2|n k H|a buf p E G|p E].
    - inversion A; subst. auto.
    - inversion A; subst. auto.
    - inversion A; subst; auto.
    - inversion A; subst. right. right. split; [reflexivity|]. exists (length (arrays w)), (repeat 0%N n). cbn [arrays]. split; [rewrite nth_error_app2, Nat.sub_diag by lia; reflexivity|]. auto.
    - destruct (act_gives _ _ _ _ _ _ _ _ A G (HU _ _ E)) as [H|[H1 [buf' [H2 [_ H3]]]]]; [left; exact H|]. right. right. split; [exact H1|]. exists a, buf'. eauto.
    - left. exact (act_ending _ _ _ _ _ _ A E).
  Qed.
End Begin.

(** ** All the calls *)
Section All.
  Variable calls : list call.
  Variable i : nat.
  Variable k : call.
  Hypothesis Hi : nth_error calls i = Some k.
  Variable R : list N -> Prop.
  Variable Lp : nat -> Prop.
  Variable Pp : option nat -> Prop.
  Variable use : option (nat * list N).
  (** Nobody but call i can reach array a. *)
  Definition private (w : world) (T : nat -> prog) (a : nat) : Prop := forall j kj, j <> i -> nth_error calls j = Some kj -> avoids a (T j) /\ e_ptr (encs w (on kj)) <> Some a.
  Definition fresh_ok (w : world) (T : nat -> prog) : Prop :=
    (forall j kj b, nth_error calls j = Some kj -> length (arrays w) <= b -> avoids b (T j)) /\ (forall e b, e_ptr (encs w e) = Some b -> b < length (arrays w)).
  Definition stage (w : world) (T : nat -> prog) : Prop :=
    ending R (T i) \/ (exists a buf, nth_error (arrays w) a = Some buf /\ gives R a (T i) buf /\ private w T a)
    \/ (begins R Lp Pp use (T i) /\ Lp (e_len (encs w (on k))) /\ Pp (e_ptr (encs w (on k))) /\ (forall a buf, use = Some (a, buf) -> nth_error (arrays w) a = Some buf /\ private w T a)
        /\ forall j kj, j <> i -> nth_error calls j = Some kj -> on kj = on k -> keeps Lp Pp (T j)).
  Lemma stage_fine w T : stage w T -> T i <> Wild /\ T i <> Crash.
  Proof. intros [H|[[a [buf [_ [H _]]]]|[H _]]]; [exact (ending_fine _ _ H)|exact (gives_fine _ _ _ _ H)|exact (begins_fine _ _ _ _ _ H)]. Qed.
  Lemma fresh_step w T w' j kj p' : fresh_ok w T -> nth_error calls j = Some kj -> act (on kj) w (T j) w' p' -> p' <> Wild -> fresh_ok w' (put T j p').
  Proof.
    intros [F1 F2] Hj A N. pose proof (act_grow _ _ _ _ _ A N) as Gr.
    assert (Ptr : forall b, length (arrays w) <= b -> forall e, e_ptr (encs w e) <> Some b) by (intros b Lb e E; apply F2 in E; lia). split.
    - intros j' kj' b Hj' Lb. destruct (Nat.eq_dec j' j) as [->|Ne]; [|rewrite put_other by exact Ne; eapply F1; [exact Hj'|lia]]. rewrite put_same. eapply act_avoids; [exact A|exact N|eapply F1; [exact Hj|lia]|apply Ptr; lia|right; exact Lb].
    - intros e b E. destruct (Nat.lt_ge_cases b (length (arrays w'))) as [L|L]; [exact L|exfalso]. revert E. eapply act_ptr; [exact A|exact N|eapply F1; [exact Hj|lia]| |apply Ptr; lia]. intros e'. left. apply Ptr. lia.
  Qed.
  Lemma private_step w T w' j kj p' a : private w T a -> j <> i -> nth_error calls j = Some kj -> act (on kj) w (T j) w' p' -> p' <> Wild -> a < length (arrays w) ->
    private w' (put T j p') a /\ nth_error (arrays w') a = nth_error (arrays w) a.
  Proof.
    intros Pr Ne Hj A N La. destruct (Pr j kj Ne Hj) as [Av Pt]. split; [|exact (act_heap _ _ _ _ _ _ A N Av La)]. intros j' kj' Ne' Hj'. destruct (Pr j' kj' Ne' Hj') as [Av' Pt']. split.
    - destruct (Nat.eq_dec j' j) as [->|Nj]; [|rewrite put_other by exact Nj; exact Av']. rewrite put_same. eapply act_avoids; try eassumption. left. exact La.
    - destruct (Nat.eq_dec (on kj') (on kj)) as [Eo|Eo]; [|rewrite (act_encs _ _ _ _ _ A N _ Eo); exact Pt']. rewrite Eo in *. eapply act_ptr; try eassumption. intros e'. destruct (Nat.eq_dec e' (on kj)) as [->|]; [left; exact Pt|right; assumption].
  Qed.
  (** A step of call i. *)
  Lemma own_step w T w' p' : fresh_ok w T -> stage w T -> act (on k) w (T i) w' p' -> stage w' (put T i p').
  Proof.
    intros F Hs A. assert (Pv : forall a, encs w' = encs w -> private w T a -> private w' (put T i p') a).
    { intros a Ee Pr j kj Ne Hj. rewrite Ee, put_other by exact Ne. exact (Pr j kj Ne Hj). }
    unfold stage. rewrite put_same. destruct Hs as [H|[[a [buf [Hb [G Pr]]]]|[B [HL [HP [HU HK]]]]]].
    - left. exact (act_ending _ _ _ _ _ _ A H).
    - destruct (act_gives _ _ _ _ _ _ _ _ A G Hb) as [H|[Ee [buf' [Hb' [_ G']]]]]; [left; exact H|]. right. left. exists a, buf'. auto.
    - destruct (act_begins _ _ _ _ _ _ _ _ _ A B HL HP (fun a buf E => proj1 (HU a buf E))) as [H|[[B' ->]|[Ee [a [buf [Hb [G Ha]]]]]]]; [left; exact H| |].
      + right. right. split; [exact B'|]. split; [exact HL|]. split; [exact HP|]. split; [intros a buf E; destruct (HU a buf E) as [U1 U2]; split; [exact U1|apply Pv; auto]|]. intros j kj Ne Hj Eo. rewrite put_other by exact Ne. eapply HK; eassumption.
      + right. left. exists a, buf. split; [exact Hb|]. split; [exact G|]. apply Pv; [exact Ee|]. destruct Ha as [->|[buf0 E]]; [|exact (proj2 (HU _ _ E))]. intros j kj Ne Hj. destruct F as [F1 F2]. split; [eapply F1; [exact Hj|lia]|]. intros E. apply F2 in E. lia.
  Qed.
  (** A step of another call. *)
  Lemma other_step w T w' j kj p' : stage w T -> j <> i -> nth_error calls j = Some kj -> act (on kj) w (T j) w' p' -> p' <> Wild -> stage w' (put T j p').
  Proof.
    intros Hs Ne Hj A N. unfold stage. rewrite put_other by auto. destruct Hs as [H|[[a [buf [Hb [G Pr]]]]|[B [HL [HP [HU HK]]]]]].
    - left. exact H.
    - assert (La : a < length (arrays w)) by (apply nth_error_Some; congruence). destruct (private_step _ _ _ _ _ _ _ Pr Ne Hj A N La) as [Pr' E]. right. left. exists a, buf. rewrite E. auto.
    - right. right. split; [exact B|].
      assert (X : Lp (e_len (encs w' (on k))) /\ Pp (e_ptr (encs w' (on k))) /\ (on kj = on k -> keeps Lp Pp p')).
      { destruct (Nat.eq_dec (on kj) (on k)) as [Eo|Eo].
        - pose proof (HK j kj Ne Hj Eo) as K. rewrite Eo in A. destruct (act_keeps _ _ _ _ _ _ _ A N K HL HP) as [K1 [K2 K3]]. auto.
        - rewrite (act_encs _ _ _ _ _ A N (on k)) by auto. split; [exact HL|]. split; [exact HP|]. intros E. contradiction. }
      destruct X as [X1 [X2 X3]]. split; [exact X1|]. split; [exact X2|]. split.
      + intros a buf E. destruct (HU a buf E) as [U1 U2]. assert (La : a < length (arrays w)) by (apply nth_error_Some; congruence). destruct (private_step _ _ _ _ _ _ _ U2 Ne Hj A N La) as [Pr' E']. rewrite E'. auto.
      + intros j' kj' Ne' Hj' Eo. destruct (Nat.eq_dec j' j) as [->|Nj]; [|rewrite put_other by exact Nj; eapply HK; eassumption]. rewrite put_same. apply X3. congruence.
  Qed.
  (** As long as nobody goes wild. *)
  Lemma stage_reached w T n w' T' : fresh_ok w T -> stage w T -> xsteps calls n (w, T) (w', T') -> (forall j kj, nth_error calls j = Some kj -> T' j <> Wild) -> fresh_ok w' T' /\ stage w' T'.
  Proof.
    intros F0 S0 H. remember (w, T) as s0 eqn:E0. remember (w', T') as s1 eqn:E1. revert w' T' E1. induction H as [s|n s s1 s2 H IH St]; intros w' T' E1 NW; subst s.
    - injection E1 as <- <-. auto.
    - destruct St as [w1 T1 j kj w2 p' Hj A]. injection E1 as <- <-.
      assert (N : p' <> Wild) by (specialize (NW j kj Hj); rewrite put_same in NW; exact NW).
      assert (NW1 : forall j kj, nth_error calls j = Some kj -> T1 j <> Wild) by (intros j' kj' Hj' E; destruct (Nat.eq_dec j' j) as [->|Nj]; [rewrite E in A; inversion A|apply (NW j' kj' Hj'); rewrite put_other by exact Nj; exact E]).
      destruct (IH eq_refl w1 T1 eq_refl NW1) as [F S1]. split; [exact (fresh_step _ _ _ _ _ _ F Hj A N)|]. destruct (Nat.eq_dec j i) as [->|Nj].
      + assert (kj = k) by congruence. subst. exact (own_step _ _ _ _ F S1 A).
      + exact (other_step _ _ _ _ _ _ S1 Nj Hj A N).
  Qed.
End All.

(** ** A buffer that is long enough for every call *)
Section Room.
  Variables (a L : nat) (R : list N -> Prop).
  (** At most n more accesses, all within the array, and rs.p is left as it is. *)
  Inductive stays : nat -> prog -> Prop :=
  | sy_done n ch : R ch -> stays n (Done ch)
  | sy_getlen n k : stays n (k L) -> stays (S n) (GetLen k)
  | sy_getptr n k : stays n (k (Some a)) -> stays (S n) (GetPtr k)
  | sy_setlen n k : stays n k -> stays (S n) (SetLen L k)
  | sy_setptr n k : stays n k -> stays (S n) (SetPtr (Some a) k)
  | sy_load n j k : j < L -> (forall v, stays n (k v)) -> stays (S n) (Load a j k)
  | sy_save n j v k : j < L -> stays n k -> stays (S n) (Save a j v k)
  | sy_either n p q : stays n p -> stays n q -> stays (S n) (Either p q).
  Lemma stays_more n p : stays n p -> forall m, n <= m -> stays m p.
  Proof. intros H. induction H; intros m Lm; (destruct m as [|m]; [try lia|]); constructor; auto; try (apply IHstays; lia); try (apply IHstays1; lia); try (apply IHstays2; lia); try (intros; apply H1; lia). Qed.
  Lemma stays_copy_in n k : stays n k -> forall d i, stays (length d + n) (copy_in (Some a, L) i d k).
  Proof.
    intros H. induction d as [|x d IH]; intros i; [exact H|]. cbn [copy_in snd length]. unfold save. cbn [fst snd]. destruct (Nat.ltb_spec i L); [|eapply stays_more; [exact H|lia]]. constructor; auto.
  Qed.
  Lemma stays_pad n k : stays n k -> forall s i, i + s <= L -> stays (s + n) (pad (Some a, L) i s k).
  Proof. intros H. induction s as [|s IH]; intros i Hi; [exact H|]. cbn [pad]. unfold save. cbn [fst snd]. destruct (Nat.ltb_spec i L); [|lia]. constructor; [lia|]. apply IH. lia. Qed.
  Lemma stays_inner f lc n k : stays n k -> forall lg i, i + length lg <= L -> stays (2 * length lg + n) (inner f lc (Some a, L) i lg k).
  Proof.
    intros H. induction lg as [|l lg IH]; intros i Hi; [exact H|]. cbn [inner length] in *. replace (2 * S (length lg) + n) with (S (S (2 * length lg + n))) by lia. destruct (l =? 255)%N; [eapply stays_more; [apply IH; lia|lia]|].
    unfold load, save. cbn [fst snd]. destruct (Nat.ltb_spec i L); [|lia]. constructor; [lia|]. intros v. constructor; [lia|]. apply IH. lia.
  Qed.
  Lemma stays_outer f lg n k : stays n k -> forall s i, i + s + length lg <= L -> stays (s * (2 * length lg + 1) + n) (outer f lg (Some a, L) i s k).
  Proof.
    intros H. induction s as [|s IH]; intros i Hi; [exact H|]. cbn [outer]. unfold load. cbn [fst snd]. destruct (Nat.ltb_spec i L); [|lia]. replace (S s * (2 * length lg + 1) + n) with (S (2 * length lg + (s * (2 * length lg + 1) + n))) by lia. constructor; [lia|]. intros c.
    destruct (c =? 0)%N; [eapply stays_more; [apply IH; lia|lia]|]. apply stays_inner; [apply IH; lia|lia].
  Qed.
  Lemma stays_copy_out n k m : (forall ch, length ch = m -> stays n (k ch)) -> forall rest i done, length done + length rest = m -> stays (length rest + n) (copy_out (Some a, L) i done rest k).
  Proof.
    intros H. induction rest as [|y rest IH]; intros i done Hm; cbn [copy_out length] in *; [apply H; lia|]. cbn [snd]. destruct (Nat.ltb_spec i L); [|eapply stays_more; [apply H; rewrite app_length; cbn; lia|lia]].
    unfold load. cbn [fst snd]. destruct (Nat.ltb_spec i L); [|lia]. constructor; [lia|]. intros v. apply IH. rewrite app_length. cbn. lia.
  Qed.
  Lemma stays_ecc f c lg dat chk : (forall ch, length ch = length chk -> R ch) -> c <= length chk -> length lg = S c -> length dat + c <= L ->
    stays (L + length dat * (2 * c + 1) + length chk + 7) (ecc f c lg dat chk).
  Proof.
    intros HR Hc Hl HL. unfold ecc. destruct (Nat.ltb_spec (length chk) c); [lia|]. destruct (Nat.eqb_spec c 0); [constructor; apply HR; reflexivity|].
    assert (D : stays (L + length dat * (2 * c + 1) + length chk + 3) (divide f lg dat chk (Some a, L))).
    { assert (Lt : length (tl lg) = c) by (destruct lg; cbn in *; lia). assert (St : forall ch, length ch = length chk -> stays 3 (store (Some a, L) (Done ch))) by (intros ch E; unfold store; cbn [fst snd]; repeat constructor; apply HR; exact E).
      unfold divide. cbn [snd]. eapply stays_more; [apply stays_copy_in, stays_pad; [apply stays_outer; [|lia]|lia]|].
      - destruct (Nat.leb_spec (length dat) L); [|lia]. apply (stays_copy_out _ _ (length chk) St). reflexivity.
      - rewrite Lt. lia. }
    replace (L + length dat * (2 * c + 1) + length chk + 7) with (S (S (S (S (L + length dat * (2 * c + 1) + length chk + 3))))) by lia. constructor. destruct (Nat.leb_spec (length dat + c) L); [|lia]. unfold fetch. repeat constructor; exact D.
  Qed.
  Lemma stays_fine n p : stays n p -> p <> Wild /\ p <> Crash.
  Proof. intros H. destruct H; split; discriminate. Qed.
  Lemma act_stays e w p w' p' n buf : act e w p w' p' -> stays n p -> e_ptr (encs w e) = Some a -> e_len (encs w e) = L -> nth_error (arrays w) a = Some buf -> length buf = L ->
    exists n', n = S n' /\ stays n' p' /\ (forall e', e_ptr (encs w' e') = e_ptr (encs w e') /\ e_len (encs w' e') = e_len (encs w e') /\ e_f (encs w' e') = e_f (encs w e') /\ e_c (encs w' e') = e_c (encs w e') /\ e_lgen (encs w' e') = e_lgen (encs w e'))
      /\ map (@length N) (arrays w') = map (@length N) (arrays w).
  Proof.
    intros A St Ep El Eb Lb.
    assert (Pt : forall x, (e_ptr x = e_ptr (encs w e) /\ e_len x = e_len (encs w e) /\ e_f x = e_f (encs w e) /\ e_c x = e_c (encs w e) /\ e_lgen x = e_lgen (encs w e)) -> forall e', e_ptr (put (encs w) e x e') = e_ptr (encs w e') /\ e_len (put (encs w) e x e') = e_len (encs w e') /\ e_f (put (encs w) e x e') = e_f (encs w e') /\ e_c (put (encs w) e x e') = e_c (encs w e') /\ e_lgen (put (encs w) e x e') = e_lgen (encs w e')).
    { intros x Hx e'. unfold put. destruct (Nat.eqb_spec e' e) as [->|]; auto. }
    destruct St as [n ch|n k St|n k St|n k St|n k St|n j k Lj St|n j v k Lj St|n p q S1 S2].
    - inversion A.
    - inversion A; subst. exists n. split; [reflexivity|]. split; [try rewrite El; exact St|]. split; [|reflexivity]. auto 10.
    - inversion A; subst. exists n. rewrite Ep. split; [reflexivity|]. split; [exact St|]. split; [|reflexivity]. auto 10.
    - inversion A; subst. exists n. split; [reflexivity|]. split; [exact St|]. split; [|reflexivity]. apply Pt. cbn. auto.
    - inversion A; subst. exists n. split; [reflexivity|]. split; [exact St|]. split; [|reflexivity]. apply Pt. cbn. auto.
    - inversion A; subst; [exists n; auto 10|]. exfalso. assert (buf0 = buf) by congruence. subst. match goal with H : nth_error buf j = None |- _ => apply nth_error_None in H; lia end.
    - inversion A; subst; [|exfalso; assert (buf0 = buf) by congruence; subst; lia]. exists n. split; [reflexivity|]. split; [exact St|]. split; [auto|]. cbn [arrays].
      assert (X : forall l i (x y : list N), nth_error l i = Some y -> length x = length y -> map (@length N) (set_nth l i x) = map (@length N) l) by (induction l as [|z l IH]; intros [|i] x y H1 H2; cbn in *; try discriminate; [injection H1 as ->; rewrite H2; reflexivity|f_equal; eapply IH; eassumption]).
      eapply X; [eassumption|apply set_nth_length].
    - inversion A; subst; exists n; auto 10.
  Qed.
End Room.
