(** * Counting the random streams on which Generate returns a given password. *)
From Coq Require Import ZArith List ListDec Bool Lia Permutation Factorial Arith.
From Verif Require Import PasswordModel PasswordProofs PasswordSpec PasswordCount PasswordUniform.
Import ListNotations.
Open Scope nat_scope.

Definition step1 (ar : bool) (set res : list Z) : list (list Z) :=
  flat_map (fun ch => if negb ar && memb ch res then []
                      else map (fun i => insert_at i ch res) (seq 0 (S (length res)))) set.
Fixpoint picks (t : nat) (ar : bool) (set res : list Z) : list (list Z) :=
  match t with
  | O => [res]
  | S t' => flat_map (picks t' ar set) (step1 ar set res)
  end.

Lemma wsum_ssum {A} (l : list A) W N (X : A -> nat -> nat) :
  ssum l (fun a => wsum W N (X a)) = wsum W N (fun r => ssum l (fun a => X a r)).
Proof.
  unfold wsum. rewrite bsum_ssum. unfold bsum.
  change (ssum l (fun a => ssum (seq 0 (S N)) (fun r => W N r * X a r)) = ssum (seq 0 (S N)) (fun r => W N r * ssum l (fun a => X a r))).
  rewrite ssum_swap. apply ssum_ext. intros r _. rewrite ssum_mul. reflexivity.
Qed.
Lemma ssum_nth (l : list Z) f : ssum l f = bsum (length l) (fun i => f (nth i l 0%Z)).
Proof.
  induction l as [|x l IH]; [reflexivity|]. rewrite ssum_cons, IH. cbn [length].
  change (S (length l)) with (1 + length l). rewrite bsum_app. f_equal. rewrite bsum_S. reflexivity.
Qed.

Lemma contains_memb s x : contains s [x] = memb x s.
Proof.
  destruct (memb x s) eqn:E.
  - apply memb_true in E. apply contains_single. exact E.
  - destruct (contains s [x]) eqn:C; [|reflexivity]. apply contains_single in C. apply memb_true in C. congruence.
Qed.

Lemma insert_sum l : exists W, forall res ch, length res = l -> forall N G,
  ssum (all_bytes N) (fun s => ev (randomInsert s res [ch]) G)
  = wsum W N (fun r => bsum (S l) (fun i => ssum (all_bytes r) (G (insert_at i ch res)))).
Proof.
  destruct l as [|l].
  - exists wid. intros res ch L N G. destruct res; [|discriminate L]. rewrite wsum_id, bsum_S. reflexivity.
  - destruct (rand_Int_sum (S (S l)) ltac:(lia)) as [W HW]. exists W. intros res ch L N G.
    rewrite <- (wsum_ext W N (fun r => bsum (S (S l)) (fun n => ssum (all_bytes r) ((fun n rest => G (insert_at (Z.to_nat n) ch res) rest) (Z.of_nat n))))).
    2:{ intros r _. apply bsum_ext. intros i _. cbv beta. rewrite Nat2Z.id. reflexivity. }
    rewrite <- (HW N (fun n rest => G (insert_at (Z.to_nat n) ch res) rest)). apply ssum_ext. intros s _. unfold randomInsert. destruct res as [|x res]; [discriminate L|].
    rewrite L. replace (Z.of_nat (S l) + 1)%Z with (Z.of_nat (S (S l))) by lia.
    destruct (rand_Int s (Z.of_nat (S (S l)))) as [n rest|e| |]; reflexivity.
Qed.

Definition hits (set res : list Z) : nat := length (filter (fun x => memb x res) set).

Lemma memb_insert x i ch res : memb x (insert_at i ch res) = (x =? ch)%Z || memb x res.
Proof.
  unfold insert_at, memb. rewrite existsb_app. cbn [existsb].
  rewrite <- (firstn_skipn i res) at 3. rewrite existsb_app.
  destruct (existsb _ (firstn i res)), (x =? ch)%Z, (existsb _ (skipn i res)); reflexivity.
Qed.
Lemma hits_insert set res i ch : NoDup set -> In ch set -> memb ch res = false ->
  hits set (insert_at i ch res) = S (hits set res).
Proof.
  intros Nd Hin Hch. unfold hits. induction Nd as [|y set Hy Nd IH]; [destruct Hin|].
  cbn [filter]. rewrite memb_insert. destruct Hin as [->|Hin].
  - rewrite Z.eqb_refl, Hch. cbn [orb length]. f_equal. f_equal. apply filter_ext_in. intros z Hz.
    rewrite memb_insert. destruct (Z.eqb_spec z ch) as [->|]; [contradiction|reflexivity].
  - specialize (IH Hin). destruct (Z.eqb_spec y ch) as [->|E]; [contradiction|]. cbn [orb].
    destruct (memb y res); cbn [length]; lia.
Qed.
Lemma ssum_hits set res A (B : Z -> nat) :
  ssum set (fun ch => if memb ch res then A else B ch)
  = hits set res * A + ssum set (fun ch => if memb ch res then 0 else B ch).
Proof.
  unfold hits. induction set as [|y set IH]; [reflexivity|]. rewrite !ssum_cons, IH. cbn [filter].
  destruct (memb y res); cbn [length]; lia.
Qed.

Definition PX (t : nat) ar set res (G : list Z -> list Z -> nat) (r : nat) : nat :=
  ssum (picks t ar set res) (fun w => ssum (all_bytes r) (G w)).

Lemma PX_S t ar set res G r :
  PX (S t) ar set res G r
  = ssum set (fun ch => if negb ar && memb ch res then 0
       else bsum (S (length res)) (fun i => PX t ar set (insert_at i ch res) G r)).
Proof.
  unfold PX. cbn [picks]. unfold step1. rewrite ssum_flat_map, ssum_flat_map. apply ssum_ext. intros ch _.
  destruct (negb ar && memb ch res); [reflexivity|]. rewrite ssum_map. reflexivity.
Qed.

Lemma pick_sum ar m : 0 < m -> forall fuel todo l j, exists W, forall set res,
  ascii set -> NoDup set -> length set = m -> length res = l -> (ar = false -> hits set res = j) ->
  forall N G, ssum (all_bytes N) (fun s => ev (pick fuel todo set ar res s) G) = wsum W N (PX todo ar set res G).
Proof.
  intros Hm. induction fuel as [|f IH]; intros todo l j.
  - destruct todo as [|todo].
    + exists wid. intros set res _ _ _ _ _ N G. rewrite wsum_id. unfold PX. cbn [picks pick ev].
      rewrite ssum_cons. change (@ssum (list Z) [] _) with 0. rewrite Nat.add_0_r. reflexivity.
    + exists (fun _ _ => 0). intros set res _ _ _ _ _ N G. cbn [pick ev]. rewrite ssum_zero.
      unfold wsum. symmetry. apply bsum_zero. intros i _. reflexivity.
  - destruct todo as [|todo].
    + exists wid. intros set res _ _ _ _ _ N G. rewrite wsum_id. unfold PX. cbn [picks pick ev].
      rewrite ssum_cons. change (@ssum (list Z) [] _) with 0. rewrite Nat.add_0_r. reflexivity.
    + destruct (IH (S todo) l j) as [W1 H1]. destruct (IH todo (S l) (S j)) as [W2 H2].
      destruct (rand_Int_sum m Hm) as [We He]. destruct (insert_sum l) as [Wi Hi].
      exists (wcomp We (wadd (wscale (if ar then 0 else j) W1) (wcomp Wi W2))).
      intros set res As Nd Lm Ll Hj N G.
      rewrite (ssum_ext _ _ (fun s => ev (rand_Int s (Z.of_nat m)) (fun n rest =>
         (fun ch rest => if negb ar && memb ch res then ev (pick f (S todo) set ar res rest) G
          else ev (randomInsert rest res [ch]) (fun res' rest' => ev (pick f todo set ar res' rest') G)) (nth (Z.to_nat n) set 0%Z) rest))).
      2:{ intros s Hs. cbn [pick]. unfold randomElement. rewrite Lm.
          assert (Bs : bytes s) by (apply all_bytes_iff; rewrite (all_bytes_length _ _ Hs); exact Hs).
          destruct (rand_Int s (Z.of_nat m)) as [n rest|e| |] eqn:R; try reflexivity.
          apply rand_Int_ok in R; [|exact Bs]. destruct R as [Rn _]. cbn [ev].
          assert (In (nth (Z.to_nat n) set 0%Z) set) as Hin by (apply nth_In_Z; rewrite Lm; exact Rn).
          assert (0 <= nth (Z.to_nat n) set 0 < 128)%Z as Hc by (unfold ascii in As; rewrite Forall_forall in As; apply As, Hin).
          rewrite string_of_byte_ascii by exact Hc. rewrite contains_memb.
          destruct (negb ar && memb (nth (Z.to_nat n) set 0%Z) res); [reflexivity|].
          destruct (randomInsert rest res [nth (Z.to_nat n) set 0%Z]) as [r' rest'|e| |]; reflexivity. }
      rewrite He.
      rewrite <- wsum_comp. apply wsum_ext. intros r _.
      rewrite (bsum_ext _ _ (fun i => (fun ch => if negb ar && memb ch res then wsum W1 r (PX (S todo) ar set res G)
          else wsum (wcomp Wi W2) r (fun r' => bsum (S l) (fun i => PX todo ar set (insert_at i ch res) G r'))) (nth i set 0%Z))).
      2:{ intros i Hi_. rewrite Nat2Z.id. set (ch := nth i set 0%Z).
          assert (Hin : In ch set) by (apply nth_In; lia).
          destruct (negb ar && memb ch res) eqn:Rep.
          - apply H1; assumption.
          - rewrite Hi by exact Ll. rewrite <- wsum_comp. apply wsum_ext. intros r2 _.
            unfold bsum. change (ssum (seq 0 (S l)) (fun i0 => ssum (all_bytes r2) (fun s => ev (pick f todo set ar (insert_at i0 ch res) s) G))
              = wsum W2 r2 (fun r' => ssum (seq 0 (S l)) (fun i0 => PX todo ar set (insert_at i0 ch res) G r'))).
            rewrite <- wsum_ssum. apply ssum_ext. intros p _.
            apply H2; try assumption; [rewrite insert_length; lia|].
            intros Ar. rewrite hits_insert; [f_equal; auto|exact Nd|exact Hin|]. subst ar. exact Rep. }
      rewrite <- Lm, <- (ssum_nth set (fun ch => if negb ar && memb ch res then wsum W1 r (PX (S todo) ar set res G)
          else wsum (wcomp Wi W2) r (fun r' => bsum (S l) (fun i => PX todo ar set (insert_at i ch res) G r')))). clear H1 H2 He Hi.
      rewrite wsum_add, wsum_scale.
      destruct ar; cbn [negb andb].
      * rewrite wsum_ssum. cbn [Nat.mul Nat.add]. apply wsum_ext. intros r' _. rewrite PX_S, Ll. reflexivity.
      * rewrite ssum_hits, Hj by reflexivity. f_equal.
        rewrite <- (wsum_ext (wcomp Wi W2) r (fun r' => ssum set (fun ch => if memb ch res then 0 else bsum (S l) (fun i => PX todo false set (insert_at i ch res) G r')))).
        2:{ intros r' _. rewrite PX_S, Ll. reflexivity. }
        rewrite <- wsum_ssum. apply ssum_ext. intros ch _. destruct (memb ch res); [|reflexivity].
        unfold wsum. symmetry. apply bsum_zero. intros i _. lia.
Qed.

(** ** The three phases *)
Lemma picks_flat ar set t res : picks (S t) ar set res = flat_map (step1 ar set) (picks t ar set res).
Proof.
  revert res. induction t as [|t IH]; intros res.
  - cbn [picks flat_map]. rewrite app_nil_r. induction (step1 ar set res) as [|a l H]; [reflexivity|].
    cbn [flat_map app]. f_equal. exact H.
  - change (picks (S (S t)) ar set res) with (flat_map (picks (S t) ar set) (step1 ar set res)).
    change (picks (S t) ar set res) with (flat_map (picks t ar set) (step1 ar set res)).
    induction (step1 ar set res) as [|a l H]; [reflexivity|]. cbn [flat_map]. rewrite flat_map_app, IH, H. reflexivity.
Qed.

(** All outcomes of a choice sequence, last set first; duplicates pruned when repeats are disallowed. *)
Definition outcomes (ar : bool) (sets : list (list Z)) : list (list Z) :=
  map build (filter (fun v => ar || nodupb (map fst v)) (choices sets)).

Lemma nodupb_true l : nodupb l = true <-> NoDup l.
Proof. unfold nodupb. destruct (NoDup_dec Z.eq_dec l); split; auto; discriminate. Qed.
Lemma memb_build x v : memb x (build v) = memb x (map fst v).
Proof.
  destruct (memb x (map fst v)) eqn:E.
  - apply memb_true in E. apply memb_true. eapply Permutation_in; [apply Permutation_sym, build_perm|exact E].
  - destruct (memb x (build v)) eqn:E2; [|reflexivity]. apply memb_true in E2.
    eapply Permutation_in in E2; [|apply build_perm]. apply memb_true in E2. congruence.
Qed.
Lemma nodupb_cons x l : nodupb (x :: l) = negb (memb x l) && nodupb l.
Proof.
  destruct (negb (memb x l) && nodupb l) eqn:E.
  - apply andb_true_iff in E. destruct E as [E1 E2]. apply nodupb_true. constructor.
    + intros H. apply memb_true in H. rewrite H in E1. discriminate.
    + apply nodupb_true, E2.
  - destruct (nodupb (x :: l)) eqn:N; [|reflexivity]. apply nodupb_true in N. inversion N as [|? ? N1 N2]; subst.
    apply nodupb_true in N2. rewrite N2, andb_true_r in E. apply negb_false_iff, memb_true in E. contradiction.
Qed.
Lemma filter_const_true {A} (l : list A) (p : A -> bool) : (forall x, In x l -> p x = true) -> filter p l = l.
Proof.
  induction l as [|x l IH]; intros H; [reflexivity|]. cbn. rewrite H by (left; reflexivity). f_equal. apply IH.
  intros y Hy. apply H. right. exact Hy.
Qed.
Lemma filter_const_false {A} (l : list A) (p : A -> bool) : (forall x, In x l -> p x = false) -> filter p l = [].
Proof.
  induction l as [|x l IH]; intros H; [reflexivity|]. cbn. rewrite H by (left; reflexivity). apply IH.
  intros y Hy. apply H. right. exact Hy.
Qed.
Lemma filter_flat_map {A B} (p : B -> bool) (f : A -> list B) l : filter p (flat_map f l) = flat_map (fun x => filter p (f x)) l.
Proof. induction l as [|x l IH]; [reflexivity|]. cbn. rewrite filter_app, IH. reflexivity. Qed.
Lemma map_flat_map {A B C} (g : B -> C) (f : A -> list B) l : map g (flat_map f l) = flat_map (fun x => map g (f x)) l.
Proof. induction l as [|x l IH]; [reflexivity|]. cbn. rewrite map_app, IH. reflexivity. Qed.
Lemma flat_map_ext_in {A B} (f g : A -> list B) l : (forall x, In x l -> f x = g x) -> flat_map f l = flat_map g l.
Proof.
  induction l as [|x l IH]; intros H; [reflexivity|]. cbn. rewrite H by (left; reflexivity). f_equal. apply IH.
  intros y Hy. apply H. right. exact Hy.
Qed.

Lemma flat_map_map {A B C} (f : B -> list C) (g : A -> B) l : flat_map f (map g l) = flat_map (fun x => f (g x)) l.
Proof. induction l as [|x l IH]; [reflexivity|]. cbn. rewrite IH. reflexivity. Qed.

Lemma outcomes_cons ar set sets : outcomes ar (set :: sets) = flat_map (step1 ar set) (outcomes ar sets).
Proof.
  unfold outcomes. cbn [choices]. rewrite filter_flat_map, map_flat_map.
  pose proof (choices_length sets) as CL. revert CL. generalize (choices sets) as vs.
  induction vs as [|v vs IH]; intros CL; [reflexivity|]. cbn [flat_map filter].
  rewrite IH by (intros u Hu; apply CL; right; exact Hu).
  assert (Lv : length (build v) = length sets) by (rewrite build_length; apply CL; left; reflexivity).
  destruct (ar || nodupb (map fst v)) eqn:E.
  - cbn [map flat_map]. f_equal. rewrite filter_flat_map, map_flat_map. unfold step1. apply flat_map_ext_in.
    intros ch _. rewrite Lv. destruct (negb ar && memb ch (build v)) eqn:R.
    + rewrite filter_const_false; [reflexivity|]. intros x Hx. apply in_map_iff in Hx. destruct Hx as [i [<- _]].
      cbn [map fst]. rewrite nodupb_cons, <- memb_build. apply andb_true_iff in R. destruct R as [R1 R2].
      rewrite R2. destruct ar; [discriminate|reflexivity].
    + rewrite filter_const_true; [rewrite map_map; reflexivity|]. intros x Hx. apply in_map_iff in Hx. destruct Hx as [i [<- _]].
      cbn [map fst]. rewrite nodupb_cons, <- memb_build. destruct ar; [reflexivity|]. cbn in R, E. rewrite R, E. reflexivity.
  - rewrite filter_const_false; [reflexivity|]. intros x Hx. apply in_flat_map in Hx. destruct Hx as [ch [_ Hx]].
    apply in_map_iff in Hx. destruct Hx as [i [<- _]]. cbn [map fst]. rewrite nodupb_cons.
    apply orb_false_iff in E. destruct E as [-> ->]. rewrite andb_false_r. reflexivity.
Qed.
Lemma outcomes_repeat ar set t sets : outcomes ar (repeat set t ++ sets) = flat_map (picks t ar set) (outcomes ar sets).
Proof.
  induction t as [|t IH].
  - cbn [repeat app picks]. induction (outcomes ar sets) as [|a l H]; [reflexivity|]. cbn. f_equal. exact H.
  - cbn [repeat app]. rewrite outcomes_cons, IH. clear IH. induction (outcomes ar sets) as [|a l H]; [reflexivity|].
    cbn [flat_map]. rewrite flat_map_app, H, <- picks_flat. reflexivity.
Qed.

Lemma picks_props ar set t : forall res w, In w (picks t ar set res) ->
  length w = length res + t /\ (forall x, In x w -> In x res \/ In x set).
Proof.
  induction t as [|t IH]; intros res w H.
  - cbn in H. destruct H as [<-|[]]. split; [lia|auto].
  - cbn [picks] in H. apply in_flat_map in H. destruct H as [r [H1 H2]]. apply IH in H2. destruct H2 as [L2 I2].
    unfold step1 in H1. apply in_flat_map in H1. destruct H1 as [ch [Hc H1]].
    destruct (negb ar && memb ch res); [destruct H1|]. apply in_map_iff in H1. destruct H1 as [i [<- _]].
    rewrite insert_length in L2. split; [lia|]. intros x Hx. apply I2 in Hx. destruct Hx as [Hx|Hx]; [|auto].
    apply memb_true in Hx. rewrite memb_insert in Hx. apply orb_true_iff in Hx. destruct Hx as [Hx|Hx].
    + apply Z.eqb_eq in Hx. subst. auto.
    + apply memb_true in Hx. auto.
Qed.

(** Choice sequences giving w, whatever the repeat mode. *)
Definition ways_mode (ar : bool) (sets : list (list Z)) (w : list Z) : nat :=
  ssum (outcomes ar sets) (fun u => if list_eqb u w then 1 else 0).
Lemma ways_mode_spec ar sets w :
  ways_mode ar sets w = if ar then ways sets w else ways_norepeat sets w.
Proof.
  unfold ways_mode, outcomes. rewrite ssum_map, ssum_filter. destruct ar; cbn [orb].
  - unfold ways. rewrite length_filter_sum. reflexivity.
  - unfold ways_norepeat. rewrite length_filter_sum. unfold ssum. apply sum_ext. intros v _.
    destruct (nodupb (map fst v)); reflexivity.
Qed.

(** The number of N-byte streams on which Generate returns [w]. *)
Definition streams_for (fuel : nat) (g : Generator) (N : nat) (len nd ns : Z) (nu ar : bool) (w : list Z) : nat :=
  length (filter (fun s => match Generate fuel g s len nd ns nu ar with Ok u _ => list_eqb u w | _ => false end) (all_bytes N)).

Lemma hits_disjoint set res : (forall x, In x res -> In x set -> False) -> hits set res = 0.
Proof.
  intros H. unfold hits. rewrite filter_const_false; [reflexivity|]. intros x Hx.
  destruct (memb x res) eqn:E; [|reflexivity]. apply memb_true in E. destruct (H x E Hx).
Qed.

Lemma streams_for_ways fuel g N len nd ns nu ar :
  ascii (letters g nu) -> ascii (digits g) -> ascii (symbols g) ->
  NoDup (letters g nu) -> NoDup (digits g) -> NoDup (symbols g) ->
  letters g nu <> [] -> digits g <> [] -> symbols g <> [] ->
  disjoint (letters g nu) (digits g) -> disjoint (letters g nu) (symbols g) -> disjoint (digits g) (symbols g) ->
  exists K, forall w, streams_for fuel g N len nd ns nu ar w
    = K * ways_mode ar (steps (letters g nu) (digits g) (symbols g) (Z.to_nat (len - nd - ns)) (Z.to_nat nd) (Z.to_nat ns)) w.
Proof.
  intros AL AD AS NL ND NS EL ED ES LD LS DS.
  destruct (refusal g len nd ns nu ar) as [e|] eqn:Rf.
  - exists 0. intros w. unfold streams_for. rewrite filter_const_false; [reflexivity|].
    intros s _. rewrite Generate_refusal, Rf. reflexivity.
  - set (L := letters g nu) in *. set (D := digits g) in *. set (S_ := symbols g) in *.
    set (c := Z.to_nat (len - nd - ns)). set (d := Z.to_nat nd). set (s := Z.to_nat ns).
    destruct (pick_sum ar (length L) ltac:(destruct L; [contradiction|cbn; lia]) fuel c 0 0) as [W1 H1].
    destruct (pick_sum ar (length D) ltac:(destruct D; [contradiction|cbn; lia]) fuel d c 0) as [W2 H2].
    destruct (pick_sum ar (length S_) ltac:(destruct S_; [contradiction|cbn; lia]) fuel s (c + d) 0) as [W3 H3].
    exists (wsum (wcomp W1 (wcomp W2 W3)) N (fun r => length (all_bytes r))). intros w.
    unfold streams_for. rewrite length_filter_sum.
    change (sum (map ?f (all_bytes N))) with (ssum (all_bytes N) f).
    set (I := fun u (_ : list Z) => if list_eqb u w then 1 else 0).
    rewrite (ssum_ext _ _ (fun st => ev (pick fuel c L ar [] st) (fun r1 g1 => ev (pick fuel d D ar r1 g1) (fun r2 g2 =>
        ev (pick fuel s S_ ar r2 g2) I)))).
    2:{ intros st _. rewrite Generate_refusal, Rf. fold L D S_ c d s.
        destruct (pick fuel c L ar [] st) as [r1 g1|e| |]; try reflexivity. cbn [ev].
        destruct (pick fuel d D ar r1 g1) as [r2 g2|e| |]; try reflexivity. cbn [ev].
        destruct (pick fuel s S_ ar r2 g2) as [r3 g3|e| |]; reflexivity. }
    rewrite (H1 L []); [|exact AL|exact NL|reflexivity|reflexivity|intros _; apply hits_disjoint; intros x []].
    rewrite (wsum_ext _ _ _ (fun r => wsum (wcomp W2 W3) r (fun r' => length (all_bytes r')
        * ways_mode ar (steps L D S_ c d s) w))).
    { rewrite wsum_comp. unfold wsum. rewrite Nat.mul_comm, <- bsum_mul. apply bsum_ext. intros r _. lia. }
    intros r _. unfold PX.
    rewrite (ssum_ext _ _ (fun w1 => wsum (wcomp W2 W3) r (fun r' => ssum (picks d ar D w1) (fun w2 => PX s ar S_ w2 I r')))).
    2:{ intros w1 Hw1. apply picks_props in Hw1. destruct Hw1 as [Lw1 Iw1].
        rewrite (H2 D w1); [|exact AD|exact ND|reflexivity|cbn in Lw1; lia|].
        - rewrite <- wsum_comp. apply wsum_ext. intros r2 _. unfold PX at 1. rewrite <- wsum_ssum.
          apply ssum_ext. intros w2 Hw2. apply picks_props in Hw2. destruct Hw2 as [Lw2 Iw2].
          apply H3; try assumption; [reflexivity|cbn in Lw1; lia|].
          intros _. apply hits_disjoint. intros x Hx Hs. apply Iw2 in Hx. destruct Hx as [Hx|Hx]; [|exact (DS x Hx Hs)].
          apply Iw1 in Hx. destruct Hx as [[]|Hx]. exact (LS x Hx Hs).
        - intros _. apply hits_disjoint. intros x Hx Hd. apply Iw1 in Hx. destruct Hx as [[]|Hx]. exact (LD x Hx Hd). }
    rewrite wsum_ssum. apply wsum_ext. intros r' _.
    unfold ways_mode, steps. rewrite outcomes_repeat, outcomes_repeat.
    rewrite <- (app_nil_r (repeat L c)), outcomes_repeat.
    change (outcomes ar []) with (map build (filter (fun v => ar || nodupb (map fst v)) [[]])).
    replace (filter (fun v : list (Z * nat) => ar || nodupb (map fst v)) [[]]) with [@nil (Z * nat)]
      by (cbn [filter map]; replace (nodupb []) with true by (symmetry; apply nodupb_true; constructor); destruct ar; reflexivity).
    cbn [map build].  rewrite !ssum_flat_map. rewrite ssum_cons. change (@ssum (list Z) [] _) with 0. rewrite Nat.add_0_r.
    rewrite <- ssum_mul. apply ssum_ext. intros w1 _. rewrite <- ssum_mul. apply ssum_ext. intros w2 _.
    unfold PX. rewrite <- ssum_mul. apply ssum_ext. intros u _. unfold I. destruct (list_eqb u w).
    + unfold ssum. generalize (all_bytes r'). intros l. induction l as [|x l IHl]; [reflexivity|].
      cbn [map length]. change (sum (1 :: ?q)) with (1 + sum q). rewrite IHl. lia.
    + rewrite ssum_zero. lia.
Qed.
