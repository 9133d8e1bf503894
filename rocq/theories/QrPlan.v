(** * Grids, assignment lists, the sweep and the mask. *)
From Coq Require Import String.
From Coq Require Import NArith ZArith Arith List Bool Lia.
From Verif Require Import Utf8 Gf256Model Gf256Spec Gf256Proofs QrVtab QrModel QrSpec QrBits QrCheck QrInter.
Import ListNotations.
Open Scope nat_scope.

(** ** Square grids *)
Definition wf (n : nat) (g : Grid) : Prop := length g = n /\ Forall (fun r => length r = n) g.
Definition cell (g : Grid) (y x : nat) : Pixel := nth x (nth y g []) (pix NoRole false).
Lemma wf_row n g y : wf n g -> y < n -> length (nth y g []) = n.
Proof. intros [L F] H. rewrite Forall_forall in F. apply F. apply nth_In. lia. Qed.
Lemma nth_error_nth' {A} (l : list A) n d : n < length l -> nth_error l n = Some (nth n l d).
Proof. intros H. apply nth_error_nth'. exact H. Qed.
Lemma getp_cell n g y x : wf n g -> y < n -> x < n -> getp g (Z.of_nat y) (Z.of_nat x) = Some (cell g y x).
Proof.
  intros W Hy Hx. pose proof (wf_row n g y W Hy) as LR. destruct W as [L F]. unfold getp.
  destruct (Z.ltb_spec (Z.of_nat y) 0); [lia|]. destruct (Z.ltb_spec (Z.of_nat x) 0); [lia|]. cbn [orb]. rewrite !Nat2Z.id.
  rewrite (nth_error_nth' g y []) by lia. apply nth_error_nth'. lia.
Qed.
Definition gset (g : Grid) (y x : nat) (p : Pixel) : Grid := upd g y (upd (nth y g []) x p).
Lemma setp_gset n g y x p : wf n g -> y < n -> x < n -> setp g (Z.of_nat y) (Z.of_nat x) p = Some (gset g y x p).
Proof.
  intros W Hy Hx. pose proof (wf_row n g y W Hy) as LR. destruct W as [L F]. unfold setp.
  destruct (Z.ltb_spec (Z.of_nat y) 0); [lia|]. destruct (Z.ltb_spec (Z.of_nat x) 0); [lia|]. cbn [orb]. rewrite !Nat2Z.id.
  rewrite (nth_error_nth' g y []) by lia. destruct (Nat.ltb_spec x (length (nth y g []))); [reflexivity|lia].
Qed.
Lemma Forall_upd {A} (P : A -> Prop) l : forall i v, Forall P l -> P v -> Forall P (upd l i v).
Proof. induction l as [|a l IH]; intros [|i] v F Pv; cbn; inversion F; subst; auto. Qed.
Lemma wf_gset n g y x p : wf n g -> y < n -> wf n (gset g y x p).
Proof.
  intros W Hy. pose proof (wf_row n g y W Hy) as LR. destruct W as [L F]. split; unfold gset; [rewrite upd_length; exact L|].
  apply Forall_upd; [exact F|]. rewrite upd_length. exact LR.
Qed.
Lemma cell_gset n g y x p y' x' : wf n g -> y < n -> x < n ->
  cell (gset g y x p) y' x' = if (y =? y') && (x =? x') then p else cell g y' x'.
Proof.
  intros W Hy Hx. pose proof (wf_row n g y W Hy) as LR. destruct W as [L F]. unfold cell, gset.
  destruct (Nat.eqb_spec y y') as [<-|Ny]; cbn [andb].
  - rewrite upd_same by lia. destruct (Nat.eqb_spec x x') as [<-|Nx]; [apply upd_same; lia|apply upd_other; exact Nx].
  - rewrite upd_other by exact Ny. reflexivity.
Qed.

(** ** Assignment lists: the last write to a cell wins *)
Definition nwrite := (nat * nat * Pixel)%type.
Definition zw (w : nwrite) : Z * Z * Pixel := (Z.of_nat (fst (fst w)), Z.of_nat (snd (fst w)), snd w).
Fixpoint lookup (ws : list (Z * Z * Pixel)) (y x : nat) : option Pixel :=
  match ws with
  | [] => None
  | w :: ws' =>
      match lookup ws' y x with
      | Some p => Some p
      | None => if ((fst (fst w) =? Z.of_nat y) && (snd (fst w) =? Z.of_nat x))%Z then Some (snd w) else None
      end
  end.
Definition in_range (n : nat) (w : Z * Z * Pixel) : Prop := (0 <= fst (fst w) < Z.of_nat n /\ 0 <= snd (fst w) < Z.of_nat n)%Z.
Lemma setp_out n g y x p g' : wf n g -> setp g y x p = Some g' -> (0 <= y < Z.of_nat n /\ 0 <= x < Z.of_nat n)%Z.
Proof.
  intros [L F] H. unfold setp in H. destruct (Z.ltb_spec y 0); [discriminate|]. destruct (Z.ltb_spec x 0); [discriminate|]. cbn [orb] in H.
  destruct (nth_error g (Z.to_nat y)) as [row|] eqn:E; [|discriminate]. destruct (Nat.ltb_spec (Z.to_nat x) (length row)); [|discriminate].
  pose proof (nth_error_In _ _ E) as I. rewrite Forall_forall in F. apply F in I. assert (Z.to_nat y < length g) by (apply nth_error_Some; congruence). lia.
Qed.
Lemma sets_none ws : sets None ws = None.
Proof. induction ws; auto. Qed.
Lemma sets_ok n ws : forall g, wf n g -> Forall (in_range n) ws ->
  exists g', sets (Some g) ws = Some g' /\ wf n g'
    /\ forall y x, cell g' y x = match lookup ws y x with Some p => p | None => cell g y x end.
Proof.
  induction ws as [|[[y x] p] ws IH]; intros g W F; [exists g; auto|].
  inversion F as [|? ? [Hy Hx] F']; subst. cbn [fst snd] in *. unfold sets. cbn [fold_left set_o fst snd]. fold (sets (setp g y x p) ws).
  rewrite <- (Z2Nat.id y), <- (Z2Nat.id x) by lia. rewrite (setp_gset n) by (auto; lia).
  destruct (IH (gset g (Z.to_nat y) (Z.to_nat x) p) ltac:(apply wf_gset; auto; lia) F') as [g' [E [W' C]]].
  exists g'. split; [exact E|]. split; [exact W'|]. intros y' x'. rewrite C. cbn [lookup fst snd].
  destruct (lookup ws y' x'); [reflexivity|]. rewrite (cell_gset n) by (auto; lia).
  destruct (Nat.eqb_spec (Z.to_nat y) y'), (Nat.eqb_spec (Z.to_nat x) x'), (Z.eqb_spec (Z.of_nat (Z.to_nat y)) (Z.of_nat y')), (Z.eqb_spec (Z.of_nat (Z.to_nat x)) (Z.of_nat x')); cbn [andb]; try lia; reflexivity.
Qed.
Lemma sets_range n ws : forall g g', wf n g -> sets (Some g) ws = Some g' -> Forall (in_range n) ws.
Proof.
  induction ws as [|[[y x] p] ws IH]; intros g g' W E; [constructor|]. unfold sets in E. cbn [fold_left set_o fst snd] in E. fold (sets (setp g y x p) ws) in E.
  destruct (setp g y x p) as [g1|] eqn:E1; [|rewrite sets_none in E; discriminate].
  pose proof (setp_out _ _ _ _ _ _ W E1) as [Hy Hx]. constructor; [split; assumption|]. eapply IH; [|exact E].
  rewrite <- (Z2Nat.id y), <- (Z2Nat.id x) in E1 by lia. rewrite (setp_gset n) in E1 by (auto; lia). inversion E1. apply wf_gset; auto. lia.
Qed.

(** ** The sweep *)
Lemma fold_flat_map {A B C} (f : A -> list B) (h : C -> B -> C) l : forall s, fold_left h (flat_map f l) s = fold_left (fun s a => fold_left h (f a) s) l s.
Proof. induction l as [|a l IH]; intros s; [reflexivity|]. cbn [flat_map fold_left]. rewrite fold_left_app. apply IH. Qed.
Definition col_cells (ys : list Z) (x : Z) : list (Z * Z) := flat_map (fun y => [(y, x - 1); (y, x - 2)]%Z) ys.
Lemma column_fold ys x s : column ys x s = fold_left fill1 (col_cells ys x) s.
Proof. unfold column, col_cells. rewrite fold_flat_map. reflexivity. Qed.
Fixpoint sweep_cols (fuel : nat) (x : Z) : list (bool * Z) :=
  match fuel with
  | O => []
  | S f => if (x <=? 0)%Z then [] else
      let x1 := (x - 2)%Z in let x2 := if (x1 =? 7)%Z then (x1 - 1)%Z else x1 in (true, x) :: (false, x2) :: sweep_cols f (x2 - 2)%Z
  end.
Definition dir_cells (siz : nat) (c : bool * Z) : list (Z * Z) := col_cells (if fst c then rev (zseq siz) else zseq siz) (snd c).
Lemma sweep_fold fuel siz : forall x s, sweep fuel siz x s = fold_left fill1 (flat_map (dir_cells siz) (sweep_cols fuel x)) s.
Proof.
  induction fuel as [|f IH]; intros x s; [reflexivity|]. cbn [sweep sweep_cols]. destruct (x <=? 0)%Z; [reflexivity|].
  set (x2 := if (x - 2 =? 7)%Z then (x - 2 - 1)%Z else (x - 2)%Z). cbn [flat_map]. rewrite !fold_left_app, IH, !column_fold. reflexivity.
Qed.
Definition zc (c : nat * nat) : Z * Z := (Z.of_nat (fst c), Z.of_nat (snd c)).
Definition cols_ok (n : nat) : bool :=
  let l1 := sweep_cols n (Z.of_nat n) in
  let l2 := map (fun k => (Nat.even k, Z.of_nat (pair_right n k) + 1)%Z) (seq 0 ((n - 1) / 2)) in
  (length l1 =? length l2) && forallb (fun ab => eqb (fst (fst ab)) (fst (snd ab)) && (snd (fst ab) =? snd (snd ab))%Z) (combine l1 l2)
  && forallb (fun k => (1 <=? pair_right n k)) (seq 0 ((n - 1) / 2)).
Lemma cols_all : forallb (fun v => cols_ok (side v)) (seq 1 40) = true. Proof. vm_cast_no_check (eq_refl true). Qed.
Lemma combine_eq {A} (l1 : list A) (e : A -> A -> bool) : (forall a b, e a b = true -> a = b) ->
  forall l2, length l1 = length l2 -> forallb (fun ab => e (fst ab) (snd ab)) (combine l1 l2) = true -> l1 = l2.
Proof.
  intros He. induction l1 as [|a l1 IH]; intros [|b l2] L H; try discriminate; [reflexivity|]. cbn in *. apply andb_true_iff in H. destruct H as [H1 H2].
  f_equal; [apply He; exact H1|]. apply IH; [lia|exact H2].
Qed.
Lemma cols_placement n : cols_ok n = true -> flat_map (dir_cells n) (sweep_cols n (Z.of_nat n)) = map zc (placement n).
Proof.
  intros A. unfold cols_ok in A. cbv zeta in A. rewrite !andb_true_iff in A. destruct A as [[A1 A2] A3].
  apply Nat.eqb_eq in A1.
  assert (E : sweep_cols n (Z.of_nat n) = map (fun k => (Nat.even k, Z.of_nat (pair_right n k) + 1)%Z) (seq 0 ((n - 1) / 2))).
  { apply (combine_eq _ (fun a b => eqb (fst a) (fst b) && (snd a =? snd b)%Z)); [|exact A1|exact A2].
    intros [a1 a2] [b1 b2] H. cbn in H. apply andb_true_iff in H. destruct H as [H1 H2]. apply eqb_prop in H1. apply Z.eqb_eq in H2. congruence. }
  rewrite E. clear E A1 A2. rewrite forallb_forall in A3. unfold placement. rewrite flat_map_map, map_flat_map.
  assert (EX : forall l, (forall k, In k l -> In k (seq 0 ((n - 1) / 2))) ->
    flat_map (fun a => dir_cells n (Nat.even a, (Z.of_nat (pair_right n a) + 1)%Z)) l
    = flat_map (fun a => map zc (flat_map (fun y => [(y, pair_right n a); (y, pair_right n a - 1)]) (if Nat.even a then rev (seq 0 n) else seq 0 n))) l).
  { induction l as [|k l IH]; intros H; [reflexivity|]. cbn [flat_map]. rewrite IH by (intros; apply H; right; assumption). f_equal.
    specialize (A3 k (H k (or_introl eq_refl))). apply Nat.leb_le in A3. unfold dir_cells, col_cells. cbn [fst snd].
    rewrite map_flat_map. unfold zseq. rewrite <- map_rev.
    replace (if Nat.even k then map Z.of_nat (rev (seq 0 n)) else map Z.of_nat (seq 0 n)) with (map Z.of_nat (if Nat.even k then rev (seq 0 n) else seq 0 n)) by (destruct (Nat.even k); reflexivity).
    rewrite flat_map_map. apply flat_map_ext. intros y. cbn [map zc fst snd]. unfold zc. cbn [fst snd].
    repeat f_equal; lia. }
  apply EX. auto.
Qed.
Lemma sweep_placement v : 1 <= v <= 40 -> flat_map (dir_cells (side v)) (sweep_cols (side v) (Z.of_nat (side v))) = map zc (placement (side v)).
Proof.
  intros Hv. apply cols_placement. pose proof cols_all as A. rewrite forallb_forall in A. apply (A v). apply in_seq. lia.
Qed.
Definition cell_lt (n : nat) (c : nat * nat) : Prop := fst c < n /\ snd c < n.
Definition gfree (g : Grid) (c : nat * nat) : bool := is_free (cell g (fst c) (snd c)).
Lemma fill_ok n cells : forall g src, wf n g -> NoDup cells -> Forall (cell_lt n) cells -> length (filter (gfree g) cells) <= length src ->
  exists g', fold_left fill1 (map zc cells) (Some (g, src)) = Some (g', skipn (length (filter (gfree g) cells)) src) /\ wf n g'
    /\ (forall y x, ~ In (y, x) (filter (gfree g) cells) -> cell g' y x = cell g y x)
    /\ map (fun c => cell g' (fst c) (snd c)) (filter (gfree g) cells) = firstn (length (filter (gfree g) cells)) src.
Proof.
  induction cells as [|[y x] cells IH]; intros g src W ND F L.
  - exists g. cbn. auto.
  - inversion ND as [|? ? Ni ND']; subst. inversion F as [|? ? [Hy Hx] F']; subst. cbn [fst snd] in *.
    cbn [map fold_left fill1 zc fst snd]. rewrite (getp_cell n) by auto. 
    assert (FE : filter (gfree g) ((y, x) :: cells) = if is_free (cell g y x) then (y, x) :: filter (gfree g) cells else filter (gfree g) cells) by reflexivity.
    rewrite FE in *. clear FE.
    destruct (is_free (cell g y x)) eqn:Fr.
    + destruct src as [|q src]; [cbn in L; lia|]. cbn [length] in L. rewrite (setp_gset n) by auto.
      assert (EqF : filter (gfree (gset g y x q)) cells = filter (gfree g) cells).
      { apply filter_ext_in. intros [y' x'] Hc. unfold gfree. cbn [fst snd]. rewrite (cell_gset n) by auto.
        destruct (Nat.eqb_spec y y') as [->|], (Nat.eqb_spec x x') as [->|]; cbn [andb]; try reflexivity. contradiction. }
      destruct (IH (gset g y x q) src ltac:(apply wf_gset; auto) ND' F' ltac:(rewrite EqF; lia)) as [g' [E [W' [C1 C2]]]].
      rewrite EqF in *. exists g'. cbn [length skipn firstn map fst snd]. split; [exact E|]. split; [exact W'|]. split.
      * intros y' x' Hn. rewrite C1 by (intros X; apply Hn; right; exact X). rewrite (cell_gset n) by auto.
        destruct (Nat.eqb_spec y y') as [->|], (Nat.eqb_spec x x') as [->|]; cbn [andb]; try reflexivity. exfalso. apply Hn. left. reflexivity.
      * rewrite C2. f_equal. rewrite C1; [|intros X; apply Ni; apply filter_In in X; tauto]. rewrite (cell_gset n) by auto. rewrite !Nat.eqb_refl. reflexivity.
    + apply IH; auto.
Qed.
Lemma NoDup_flat_map {A B} (f : A -> list B) l : NoDup l -> (forall a, In a l -> NoDup (f a)) ->
  (forall a a' b, In a l -> In a' l -> In b (f a) -> In b (f a') -> a = a') -> NoDup (flat_map f l).
Proof.
  induction l as [|a l IH]; intros ND H1 H2; [constructor|]. cbn [flat_map]. inversion ND; subst. 
  assert (G : forall l1 l2 : list B, NoDup l1 -> NoDup l2 -> (forall b, In b l1 -> ~ In b l2) -> NoDup (l1 ++ l2)).
  { clear. induction l1 as [|b l1 IH]; intros l2 N1 N2 D; [exact N2|]. inversion N1; subst. cbn. constructor.
    - intros X. apply in_app_or in X. destruct X as [X|X]; [contradiction|]. apply (D b); [left; reflexivity|exact X].
    - apply IH; auto. intros b' Hb. apply D. right. exact Hb. }
  apply G.
  - apply H1. left. reflexivity.
  - apply IH; auto.
    + intros a' Ha. apply H1. right. exact Ha.
    + intros a1 a2 b Ha1 Ha2. apply H2; right; assumption.
  - intros b Hb X. apply in_flat_map in X. destruct X as [a' [Ha' Hb']]. assert (a = a') by (eapply H2; eauto; [left; reflexivity|right; exact Ha']). subst. contradiction.
Qed.
Lemma pair_right_facts v k : 1 <= v -> k < (side v - 1) / 2 -> let n := side v in
  pair_right n k = (if n - 1 - 2 * k <=? 6 then n - 2 - 2 * k else n - 1 - 2 * k) /\ 1 <= pair_right n k < n.
Proof.
  intros Hv Hk n. unfold pair_right. fold n in Hk. assert (Hn : n = 2 * (8 + 2 * v) + 1) by (unfold n, side; lia).
  rewrite Hn in Hk. replace (2 * (8 + 2 * v) + 1 - 1) with ((8 + 2 * v) * 2) in Hk by lia. rewrite Nat.div_mul in Hk by lia.
  destruct (Nat.leb_spec (n - 1 - 2 * k) 6); split; lia.
Qed.
Lemma placement_NoDup v : 1 <= v -> NoDup (placement (side v)).
Proof.
  intros Hv. unfold placement. set (n := side v). assert (Hn : n = 2 * (8 + 2 * v) + 1) by (unfold n, side; lia).
  apply NoDup_flat_map.
  - apply seq_NoDup.
  - intros k Hk. apply in_seq in Hk. destruct (pair_right_facts v k Hv ltac:(fold n; lia)) as [_ B]. fold n in B.
    apply NoDup_flat_map.
    + destruct (Nat.even k); [apply NoDup_rev|]; apply seq_NoDup.
    + intros y _. constructor; [|constructor; [intros []|constructor]]. intros [X|[]]. inversion X. lia.
    + intros y y' [b1 b2] _ _ H1 H2. cbn in H1, H2. destruct H1 as [H1|[H1|[]]], H2 as [H2|[H2|[]]]; congruence.
  - intros k k' [b1 b2] Hk Hk' H1 H2. apply in_seq in Hk, Hk'. apply in_flat_map in H1, H2. destruct H1 as [y1 [_ H1]], H2 as [y2 [_ H2]].
    destruct (pair_right_facts v k Hv ltac:(fold n; lia)) as [E B]. destruct (pair_right_facts v k' Hv ltac:(fold n; lia)) as [E' B']. fold n in E, B, E', B'.
    replace ((n - 1) / 2) with (8 + 2 * v) in * by (rewrite Hn; replace (2 * (8 + 2 * v) + 1 - 1) with ((8 + 2 * v) * 2) by lia; rewrite Nat.div_mul; lia).
    destruct (Nat.leb_spec (n - 1 - 2 * k) 6), (Nat.leb_spec (n - 1 - 2 * k') 6);
    cbn [In] in H1, H2; destruct H1 as [H1|[H1|[]]], H2 as [H2|[H2|[]]]; apply (f_equal snd) in H1; apply (f_equal snd) in H2; cbn [snd] in H1, H2; lia.
Qed.
Lemma placement_lt v : 1 <= v -> Forall (cell_lt (side v)) (placement (side v)).
Proof.
  intros Hv. apply Forall_forall. intros [y x] H. unfold placement in H. apply in_flat_map in H. destruct H as [k [Hk H]]. apply in_seq in Hk.
  apply in_flat_map in H. destruct H as [y' [Hy H]]. destruct (pair_right_facts v k Hv ltac:(lia)) as [_ B]. cbv zeta in B.
  assert (y' < side v). { destruct (Nat.even k); [apply in_rev in Hy|]; apply in_seq in Hy; lia. }
  unfold cell_lt. cbn in *. destruct H as [H|[H|[]]]; inversion H; lia.
Qed.

(** ** mplan *)
Lemma mapi_nth {A B} (f : nat -> A -> B) l : forall i k da db, k < length l -> nth k (mapi f i l) db = f (i + k) (nth k l da).
Proof. induction l as [|a l IH]; intros i [|k] da db H; cbn in *; try lia; [f_equal; lia|]. rewrite (IH (S i) k da) by lia. f_equal. lia. Qed.
Lemma mapi_length {A B} (f : nat -> A -> B) l : forall i, length (mapi f i l) = length l.
Proof. induction l as [|a l IH]; intros i; cbn; auto. Qed.
Lemma mapi_Forall {A B} (f : nat -> A -> B) (P : A -> Prop) (Q : B -> Prop) l : (forall i a, P a -> Q (f i a)) -> forall i, Forall P l -> Forall Q (mapi f i l).
Proof. intros H. induction l as [|a l IH]; intros i F; cbn; inversion F; subst; constructor; auto. Qed.
Lemma mplan_wf n m g : wf n g -> wf n (mplan m g).
Proof.
  intros [L F]. split; unfold mplan; [rewrite mapi_length; exact L|]. eapply mapi_Forall; [|exact F]. cbv beta. intros i a Ha. rewrite mapi_length. exact Ha.
Qed.
Lemma mplan_cell n m g y x : wf n g -> y < n -> x < n ->
  cell (mplan m g) y x = if maskable (cell g y x) && Invert m y x then flip (cell g y x) else cell g y x.
Proof.
  intros W Hy Hx. pose proof (wf_row n g y W Hy) as LR. destruct W as [L F]. unfold cell, mplan.
  rewrite (mapi_nth _ g 0 y []) by lia. rewrite (mapi_nth _ _ 0 x (pix NoRole false)) by lia. reflexivity.
Qed.
