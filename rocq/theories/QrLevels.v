(** * Proofs: symbols of different levels differ in their format information. *)
From Coq Require Import String.
From Coq Require Import NArith ZArith Arith List Bool Lia.
From Verif Require Import Utf8 Gf256Spec QrModel QrSpec QrStatic QrDraw QrRead QrProps QrDamageSpec QrDamage.
Import ListNotations.
Local Open Scope nat_scope.

Fixpoint words (k : nat) : list (list bool) := match k with O => [[]] | S j => flat_map (fun w => [true :: w; false :: w]) (words j) end.
Lemma words_all k : forall w, length w = k -> In w (words k).
Proof.
  induction k as [|k IH]; intros [|b w] L; try discriminate; [left; reflexivity|]. cbn [words]. apply in_flat_map. exists w. injection L as L. split; [apply IH, L|]. destruct b; [left|right; left]; reflexivity.
Qed.
Lemma bits_val_inj k : forall a b, length a = k -> length b = k -> bits_val a = bits_val b -> a = b.
Proof.
  assert (G : forall a b x y, length a = length b -> fold_left (fun (a : N) (b : bool) => (2 * a + (if b then 1 else 0))%N) a x = fold_left (fun (a : N) (b : bool) => (2 * a + (if b then 1 else 0))%N) b y -> a = b /\ x = y).
  { induction a as [|p a IH]; intros [|q b] x y L E; try discriminate; [auto|]. cbn [fold_left] in E. injection L as L. destruct (IH b _ _ L E) as [-> Q]. destruct p, q; split; try reflexivity; try lia; f_equal; lia. }
  intros a b La Lb E. apply (G a b 0%N 0%N); [congruence|exact E].
Qed.
Definition fmt_of (w : list bool) : option (nat * nat) :=
  let f := N.lxor (bits_val w) 0x5412 in
  if (bch 5 10 0x537 f =? 0)%N then Some (nth (N.to_nat (N.shiftr f 13)) [1; 0; 3; 2] 0, N.to_nat (N.land (N.shiftr f 10) 7)) else None.
Definition fmts : list (nat * list bool) := flat_map (fun w => match fmt_of w with Some (l, 0) => [(l, w)] | _ => [] end) (words 15).
Lemma fmts_far : forallb (fun a => forallb (fun b => (fst a =? fst b) || (7 <=? bdiff (snd a) (snd b))) fmts) fmts = true.
Proof. vm_compute. reflexivity. Qed.
Local Opaque words.
Lemma formats_far w w' l l' : length w = 15 -> length w' = 15 -> fmt_of w = Some (l, 0) -> fmt_of w' = Some (l', 0) -> l <> l' -> 7 <= bdiff w w'.
Proof.
  intros L L' E E' N. pose proof fmts_far as F. rewrite forallb_forall in F.
  assert (I : forall u m, length u = 15 -> fmt_of u = Some (m, 0) -> In (m, u) fmts) by (intros u m Lu Eu; refine (proj2 (in_flat_map _ _ _) (ex_intro _ u (conj (words_all 15 u Lu) _))); rewrite Eu; left; exact eq_refl).
  specialize (F _ (I w l L E)). cbv beta in F. rewrite forallb_forall in F. specialize (F _ (I w' l' L' E')). cbn [fst snd] in F. apply orb_true_iff in F. destruct F as [F|F]; [apply Nat.eqb_eq in F; contradiction|apply Nat.leb_le in F; exact F].
Qed.
Definition cells1 : list (nat * nat) := map (fun i => format_cell1 (14 - i)) (seq 0 15).
Definition cells2 (n : nat) : list (nat * nat) := map (fun i => format_cell2 n (14 - i)) (seq 0 15).
Lemma read_format_words n p l : read_format n p = Some (l, 0) -> exists w, length w = 15 /\ fmt_of w = Some (l, 0) /\ map (fun c => p (fst c) (snd c)) cells1 = w /\ map (fun c => p (fst c) (snd c)) (cells2 n) = w.
Proof.
  unfold read_format. cbv zeta. set (w1 := map _ (seq 0 15)). set (w2 := map _ (seq 0 15)). destruct (N.eqb_spec (bits_val w1) (bits_val w2)) as [Q|Q]; [|discriminate]. cbn [andb].
  assert (L1 : length w1 = 15) by (unfold w1; rewrite map_length, seq_length; reflexivity). assert (L2 : length w2 = 15) by (unfold w2; rewrite map_length, seq_length; reflexivity).
  apply (bits_val_inj 15) in Q; [|exact L1|exact L2]. intros E. exists w1. split; [exact L1|]. split; [exact E|]. unfold cells1, cells2. rewrite !map_map. split; [reflexivity|]. symmetry. exact Q.
Qed.
Fixpoint nodupb (l : list (nat * nat)) : bool := match l with [] => true | (y, x) :: t => negb (existsb (fun c => (fst c =? y) && (snd c =? x)) t) && nodupb t end.
Lemma nodupb_ok l : nodupb l = true -> NoDup l.
Proof.
  induction l as [|[y x] l IH]; intros H; constructor; cbn [nodupb] in H; apply andb_true_iff in H; destruct H as [A B]; [|apply IH, B]. intros I. apply negb_true_iff in A.
  assert (existsb (fun c => (fst c =? y) && (snd c =? x)) l = true) by (apply existsb_exists; exists (y, x); cbn; rewrite !Nat.eqb_refl; auto). congruence.
Qed.
Lemma cells_all : forallb (fun v => nodupb (cells1 ++ cells2 (side v)) && forallb (fun c => (fst c <? side v) && (snd c <? side v)) (cells1 ++ cells2 (side v))) (seq 1 40) = true.
Proof. vm_compute. reflexivity. Qed.
Lemma bdiff_map (f g : nat * nat -> bool) cells : bdiff (map f cells) (map g cells) = length (filter (fun c => xorb (f c) (g c)) cells).
Proof. induction cells as [|c cells IH]; [reflexivity|]. cbn [map bdiff filter]. rewrite IH. destruct (f c), (g c); reflexivity. Qed.
Lemma levels_far v p q l l' : 1 <= v <= 40 -> read_format (side v) p = Some (l, 0) -> read_format (side v) q = Some (l', 0) -> l <> l' -> 14 <= changed (side v) p q.
Proof.
  intros Hv E E' N. destruct (read_format_words _ _ _ E) as [w [L [F [W1 W2]]]]. destruct (read_format_words _ _ _ E') as [w' [L' [F' [W1' W2']]]].
  pose proof (formats_far _ _ _ _ L L' F F' N) as D. pose proof cells_all as C. rewrite forallb_forall in C. specialize (C v ltac:(apply in_seq; lia)). apply andb_true_iff in C. destruct C as [C1 C2]. apply nodupb_ok in C1. rewrite forallb_forall in C2.
  assert (G : length (filter (fun c => xorb (p (fst c) (snd c)) (q (fst c) (snd c))) (cells1 ++ cells2 (side v))) <= changed (side v) p q).
  { unfold changed. apply filter_incl_le; [exact C1|]. intros [y x] I. specialize (C2 _ I). cbn [fst snd] in C2. apply andb_true_iff in C2. destruct C2 as [A B]. apply Nat.ltb_lt in A, B. apply in_prod; apply in_seq; lia. }
  rewrite filter_app, app_length in G. rewrite <- !(bdiff_map (fun c => p (fst c) (snd c)) (fun c => q (fst c) (snd c))) in G. rewrite W1, W2, W1', W2' in G. lia.
Qed.
