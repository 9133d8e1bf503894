(** * Proofs about PasswordConc: a call among others is Generate on the bytes it was given. *)
From Coq Require Import ZArith Arith List Bool Lia.
From Verif Require Import PasswordModel PasswordConc.
Import ListNotations.
Open Scope Z_scope.

(** ** rand.Int on a stream cut after the first k bytes *)
Lemma rand_loop_fuel k b max : (1 <= k)%nat -> forall f1 f2 rng, (length rng < f1)%nat -> (length rng < f2)%nat ->
  rand_loop f1 k b max rng = rand_loop f2 k b max rng.
Proof.
  intros Hk. induction f1 as [|f1 IH]; intros f2 rng L1 L2; [lia|]. destruct f2 as [|f2]; [lia|]. cbn [rand_loop].
  destruct (length rng <? k)%nat eqn:E; [reflexivity|]. apply Nat.ltb_ge in E.
  destruct (_ <? max); [reflexivity|]. apply IH; rewrite skipn_length; lia.
Qed.
Lemma bit_len_nonneg n : 0 <= bit_len n.
Proof. unfold bit_len. destruct (n <=? 0) eqn:E; [lia|]. pose proof (Z.log2_nonneg n). lia. Qed.
Lemma bytes_pos bl : 0 <= bl -> bl <> 0 -> (1 <= Z.to_nat ((bl + 7) / 8))%nat.
Proof. intros H1 H2. assert (1 <= (bl + 7) / 8) by (apply Z.div_le_lower_bound; lia). lia. Qed.

(** The loops still to come. *)
Fixpoint rest_loops (f : nat) (ar : bool) (next : list (nat * list Z)) (res rng : list Z) : result (list Z) :=
  match next with
  | [] => Ok res rng
  | (t, set) :: n => match pick f t set ar res rng with Ok r rng' => rest_loops f ar n r rng' | x => x end
  end.
Definition as_result (o : outcome) (rng : list Z) : result (list Z) :=
  match o with Password s => Ok s rng | Failed e => Err e | Panicked => Panic end.
Definition cont (f1 f2 : nat) (s : state) (rng : list Z) : result (list Z) :=
  match s with
  | Finished o => as_result o rng
  | Element ar t set next res =>
      match pick f1 (S t) set ar res rng with Ok r rng' => rest_loops f2 ar next r rng' | x => x end
  | Insert ar ch t set next res =>
      match randomInsert rng res ch with
      | Ok r rng' => match pick f1 t set ar r rng' with Ok r' rng'' => rest_loops f2 ar next r' rng'' | x => x end
      | x => x
      end
  end.
Definition evaluates (s : state) (rng : list Z) (R : result (list Z)) : Prop :=
  exists F, forall f1 f2, (F <= f1)%nat -> (F <= f2)%nat -> cont f1 f2 s rng = R.


Lemma evaluates_loops ar : forall next res rng R, evaluates (loops ar next res) rng R ->
  exists F, forall f f2, (F <= f)%nat -> (F <= f2)%nat ->
    match next with [] => Ok res rng | (t, set) :: n => match pick f t set ar res rng with Ok r rng' => rest_loops f2 ar n r rng' | x => x end end = R.
Proof.
  induction next as [|[t set] n IH]; intros res rng R; cbn [loops].
  - intros H. exact H.
  - destruct t as [|t].
    + intros E. apply IH in E. destruct E as [F H]. exists F. intros f f2 Hf Hf2.
      destruct f; cbn [pick]; destruct n as [|[t' s'] n']; cbn [rest_loops]; apply (H f2 f2 Hf2 Hf2).
    + intros H. exact H.
Qed.

(** What ask says and what rand.Int does. *)
Lemma ask_bytes s max k b mx bs rng : ask s max = Bytes k b mx -> length bs = k ->
  mx = max /\ (1 <= k)%nat /\
  rand_Int (bs ++ rng) max = (if big_endian (mask_first b bs) <? max then Ok (big_endian (mask_first b bs)) rng else rand_Int rng max).
Proof.
  unfold ask, rand_Int. destruct (max <=? 0) eqn:Em; [discriminate|].
  destruct (bit_len (max - 1) =? 0) eqn:Eb; [discriminate|].
  intros E L. injection E as E1 E2 E3. apply Z.eqb_neq in Eb.
  pose proof (bytes_pos _ (bit_len_nonneg (max - 1)) Eb) as Hk. rewrite E1 in *. rewrite E2 in *.
  split; [congruence|]. split; [exact Hk|]. rewrite <- L in Hk.
  cbn [rand_loop]. rewrite app_length.
  replace (length bs + length rng <? k)%nat with false by (symmetry; apply Nat.ltb_ge; lia).
  rewrite firstn_app, L, Nat.sub_diag, firstn_O, app_nil_r, <- L, firstn_all, skipn_app, skipn_all, Nat.sub_diag, skipn_O. cbn [app].
  destruct (_ <? max); [reflexivity|]. symmetry. etransitivity; [|apply (rand_loop_fuel (length bs) b max Hk (S (length rng)) (length bs + length rng) rng); lia]. reflexivity.
Qed.
Lemma ask_short s max k b mx part_ : ask s max = Bytes k b mx -> (length part_ < k)%nat -> rand_Int part_ max = Err ErrReader.
Proof.
  unfold ask, rand_Int. destruct (max <=? 0) eqn:Em; [discriminate|].
  destruct (bit_len (max - 1) =? 0) eqn:Eb; [discriminate|].
  intros E L. injection E as E1 E2 E3. rewrite E1. cbn [rand_loop].
  apply Nat.ltb_lt in L. rewrite L. reflexivity.
Qed.
Lemma ask_silent s max s' rng : ask s max = Silent s' ->
  (s' = Finished Panicked /\ rand_Int rng max = Panic) \/ (s' = drawn s 0 /\ rand_Int rng max = Ok 0 rng).
Proof.
  unfold ask, rand_Int. destruct (max <=? 0) eqn:Em; [intros E; injection E as <-; left; split; reflexivity|].
  destruct (bit_len (max - 1) =? 0) eqn:Eb; [|discriminate]. intros E. injection E as <-. right. split; reflexivity.
Qed.

(** An answer n of rand.Int, whatever it cost. *)
Lemma drawn_Element ar t set next res n rng' rng R : 
  rand_Int rng' (Z.of_nat (length set)) = Ok n rng ->
  evaluates (drawn (Element ar t set next res) (Z.to_nat n)) rng R -> evaluates (Element ar t set next res) rng' R.
Proof.
  intros E [F H]. exists (S F). intros f1 f2 H1 H2. destruct f1 as [|f1]; [lia|].
  specialize (H f1 f2 ltac:(lia) ltac:(lia)). unfold cont. cbn [pick]. unfold randomElement. rewrite E.
  cbn [drawn] in H. destruct (negb ar && contains res (string_of_byte (nth (Z.to_nat n) set 0))) eqn:C.
  - exact H.
  - cbn [cont] in H. destruct (randomInsert rng res _) as [r rng2| | |]; exact H.
Qed.
Lemma drawn_Insert ar ch t set next res n rng' rng R : res <> [] ->
  rand_Int rng' (Z.of_nat (length res) + 1) = Ok n rng ->
  evaluates (drawn (Insert ar ch t set next res) (Z.to_nat n)) rng R -> evaluates (Insert ar ch t set next res) rng' R.
Proof.
  intros N E H. cbn [drawn] in H. apply (evaluates_loops ar ((t, set) :: next)) in H. destruct H as [F H]. exists F. intros f1 f2 H1 H2.
  cbn [cont]. unfold randomInsert. destruct res as [|x res]; [congruence|]. rewrite E. apply H; assumption.
Qed.
Lemma back_silent s s' rng R : wants s = Silent s' -> evaluates s' rng R -> evaluates s rng R.
Proof.
  destruct s as [o|ar t set next res|ar ch t set next res]; cbn [wants].
  - discriminate.
  - intros A H. destruct (ask_silent _ _ _ rng A) as [[-> E]|[-> E]].
    + destruct H as [F H]. exists (S F). intros f1 f2 H1 H2. destruct f1 as [|f1]; [lia|].
      specialize (H f1 f2 ltac:(lia) ltac:(lia)). cbn [cont pick]. unfold randomElement. rewrite E. exact H.
    + eapply drawn_Element; [exact E|]. exact H.
  - destruct res as [|x res].
    + intros A H. injection A as <-. apply (evaluates_loops ar ((t, set) :: next)) in H. destruct H as [F H]. exists F. intros f1 f2 H1 H2.
      cbn [cont randomInsert]. apply H; assumption.
    + intros A H. destruct (ask_silent _ _ _ rng A) as [[-> E]|[-> E]].
      * destruct H as [F H]. exists F. intros f1 f2 H1 H2. cbn [cont]. unfold randomInsert. rewrite E. apply (H f1 f2); assumption.
      * eapply drawn_Insert; [discriminate|exact E|]. exact H.
Qed.
Lemma back_fed s k b max bs rng R : wants s = Bytes k b max -> length bs = k ->
  evaluates (fed s b max bs) rng R -> evaluates s (bs ++ rng) R.
Proof.
  destruct s as [o|ar t set next res|ar ch t set next res]; cbn [wants].
  - discriminate.
  - intros A L H. destruct (ask_bytes _ _ _ _ _ bs rng A L) as [-> [_ E]]. unfold fed in H.
    destruct (_ <? _).
    + eapply drawn_Element; [exact E|exact H].
    + destruct H as [F H]. exists (S F). intros f1 f2 H1 H2. destruct f1 as [|f1]; [lia|].
      specialize (H (S f1) f2 ltac:(lia) ltac:(lia)). cbn [cont pick] in *. unfold randomElement in *. rewrite E. exact H.
  - destruct res as [|x res]; [discriminate|]. intros A L H. destruct (ask_bytes _ _ _ _ _ bs rng A L) as [-> [_ E]]. unfold fed in H.
    destruct (_ <? _).
    + eapply drawn_Insert; [discriminate|exact E|exact H].
    + destruct H as [F H]. exists F. intros f1 f2 H1 H2. specialize (H f1 f2 H1 H2).
      cbn [cont] in *. unfold randomInsert in *. rewrite E. exact H.
Qed.
Lemma wants_pos s k b max : wants s = Bytes k b max -> (1 <= k)%nat.
Proof.
  assert (G : forall max', ask s max' = Bytes k b max -> (1 <= k)%nat).
  { intros m' A. destruct (ask_bytes _ _ _ _ _ (repeat 0 k) [] A (repeat_length _ _)) as [_ [H _]]. exact H. }
  destruct s as [o|ar t set next res|ar ch t set next res]; cbn [wants]; [discriminate|apply G|].
  destruct res; [discriminate|apply G].
Qed.
Lemma short_evaluates s k b max p : wants s = Bytes k b max -> (length p < k)%nat -> evaluates s p (Err ErrReader).
Proof.
  destruct s as [o|ar t set next res|ar ch t set next res]; cbn [wants].
  - discriminate.
  - intros A L. exists 1%nat. intros f1 f2 H1 H2. destruct f1 as [|f1]; [lia|]. cbn [cont pick]. unfold randomElement.
    rewrite (ask_short _ _ _ _ _ _ A L). reflexivity.
  - destruct res as [|x res]; [discriminate|]. intros A L. exists 0%nat. intros f1 f2 H1 H2. cbn [cont]. unfold randomInsert.
    rewrite (ask_short _ _ _ _ _ _ A L). reflexivity.
Qed.

(** ** The invariant of a call *)
Definition waits_well (t : thread) : Prop :=
  match wants (at_ t) with Bytes k _ _ => (length (part t) < k)%nat | _ => part t = [] end.
Lemma fresh_well s g : waits_well {| at_ := s; part := []; got := g |}.
Proof. unfold waits_well. cbn [at_ part]. destruct (wants s) eqn:E; try reflexivity. apply wants_pos in E. cbn. lia. Qed.
(** Where the call is now decides what Generate would have given on the bytes so far. *)
Definition faithful (c : call) (t : thread) : Prop :=
  waits_well t /\ (forall rng R, evaluates (at_ t) (part t ++ rng) R -> evaluates (start c) (got t ++ rng) R)
  \/ at_ t = Finished (Failed ErrReader) /\ evaluates (start c) (got t) (Err ErrReader).
Lemma act_faithful c rng t rng' t' : act rng t rng' t' -> faithful c t -> faithful c t'.
Proof.
  intros A [[W H]|[W _]].
  2:{ destruct A as [? ? ? E|? ? ? ? ? ? E|? ? ? ? ? E]; rewrite W in E; discriminate. }
  destruct A as [rng t s' E|rng t k b max bs E L|rng t k b max E].
  - left. unfold waits_well in W. rewrite E in W. cbn [at_ part got]. rewrite W in *. split; [apply fresh_well|].
    intros r R Ev. apply H. eapply back_silent; eassumption.
  - left. unfold waits_well in W. rewrite E in W. unfold receive.
    destruct (length (part t ++ bs) <? k)%nat eqn:F.
    + apply Nat.ltb_lt in F. split; [unfold waits_well; cbn [at_ part]; rewrite E; exact F|].
      cbn [at_ part got]. intros r R Ev. rewrite <- app_assoc in *. apply H. exact Ev.
    + apply Nat.ltb_ge in F. rewrite app_length in F. split; [apply fresh_well|]. cbn [at_ part got app].
      intros r R Ev. rewrite <- app_assoc. apply H. rewrite app_assoc. eapply back_fed; [exact E|rewrite app_length; lia|exact Ev].
  - right. cbn [at_ got]. split; [reflexivity|]. unfold waits_well in W. rewrite E in W.
    rewrite <- (app_nil_r (got t)). apply H. rewrite app_nil_r. eapply short_evaluates; eassumption.
Qed.
Lemma spawn_faithful c : faithful c (spawn c).
Proof. left. split; [apply fresh_well|]. cbn. auto. Qed.

(** start against Generate. *)
Lemma start_Generate c rng R : evaluates (start c) rng R -> exists F, forall f, (F <= f)%nat ->
  Generate f (gen c) rng (len c) (numDigits c) (numSymbols c) (noUpper c) (allowRepeat c) = R.
Proof.
  unfold start, Generate.
  destruct (_ <? 0). { intros [F H]. exists F. intros f Hf. exact (H f f Hf Hf). }
  destruct (_ && _). { intros [F H]. exists F. intros f Hf. exact (H f f Hf Hf). }
  destruct (_ && _). { intros [F H]. exists F. intros f Hf. exact (H f f Hf Hf). }
  destruct (_ && _). { intros [F H]. exists F. intros f Hf. exact (H f f Hf Hf). }
  intros E. apply evaluates_loops in E. destruct E as [F H]. exists F. intros f Hf. specialize (H f f Hf Hf).
  cbn [rest_loops] in H. destruct (pick f _ (letters _ _) _ _ _) as [r1 rng1| | |]; try exact H.
  destruct (pick f _ (digits _) _ _ _) as [r2 rng2| | |]; try exact H.
  destruct (pick f _ (symbols _) _ _ _) as [r3 rng3| | |]; exact H.
Qed.

(** ** All the calls *)
Lemma set_same T i t : set_thread T i t i = t.
Proof. unfold set_thread. rewrite Nat.eqb_refl. reflexivity. Qed.
Lemma set_other T i t j : j <> i -> set_thread T i t j = T j.
Proof. intros N. unfold set_thread. apply Nat.eqb_neq in N. rewrite N. reflexivity. Qed.
Lemma init_nth calls rng i c : nth_error calls i = Some c -> snd (init calls rng) i = spawn c.
Proof.
  intros E. cbn [init snd]. rewrite nth_error_nth with (x := spawn c); [reflexivity|]. rewrite nth_error_map, E. reflexivity.
Qed.
Lemma steps_faithful calls rng cfg : steps (length calls) (init calls rng) cfg ->
  forall i c, nth_error calls i = Some c -> faithful c (snd cfg i).
Proof.
  intros H. remember (init calls rng) as c0 eqn:E0. induction H as [c1|c1 c2 c3 H1 IH H2]; subst.
  - intros i c E. rewrite (init_nth _ _ _ _ E). apply spawn_faithful.
  - intros i c E. specialize (IH eq_refl i c E). destruct H2 as [j rng2 T rng3 t' Hj A]. cbn [snd] in *.
    destruct (Nat.eq_dec i j) as [->|N]; [rewrite set_same; eapply act_faithful; eassumption|rewrite set_other by exact N; exact IH].
Qed.

(** ** Forward: what Generate does is a run of the call *)
Inductive chunks : list Z -> state -> list Z -> state -> Prop :=
| chunks_end rng s : chunks rng s rng s
| chunks_silent rng s s1 rng' s' : wants s = Silent s1 -> chunks rng s1 rng' s' -> chunks rng s rng' s'
| chunks_read rng s k b max bs rng' s' : wants s = Bytes k b max -> length bs = k -> chunks rng (fed s b max bs) rng' s' ->
    chunks (bs ++ rng) s rng' s'.
Lemma chunks_trans rng s rng1 s1 rng2 s2 : chunks rng s rng1 s1 -> chunks rng1 s1 rng2 s2 -> chunks rng s rng2 s2.
Proof. induction 1; intros H2; [exact H2|eapply chunks_silent; eauto|eapply chunks_read; eauto]. Qed.

Lemma rand_chunks s k b max : wants s = Bytes k b max -> forall f rng n rest, rand_loop f k b max rng = Ok n rest ->
  chunks rng s rest (drawn s (Z.to_nat n)).
Proof.
  intros W. induction f as [|f IH]; intros rng n rest E; cbn [rand_loop] in E; [discriminate|].
  destruct (length rng <? k)%nat eqn:L; [discriminate|]. apply Nat.ltb_ge in L.
  rewrite <- (firstn_skipn k rng). eapply chunks_read; [exact W|apply firstn_length_le; exact L|].
  unfold fed. destruct (_ <? max).
  - injection E as <- <-. apply chunks_end.
  - apply IH. exact E.
Qed.
Lemma ask_chunks s max rng n rest : wants s = ask s max -> rand_Int rng max = Ok n rest -> chunks rng s rest (drawn s (Z.to_nat n)).
Proof.
  intros W E. unfold rand_Int in E. unfold ask in W. destruct (max <=? 0); [discriminate|].
  destruct (bit_len (max - 1) =? 0).
  - injection E as <- <-. eapply chunks_silent; [exact W|apply chunks_end].
  - eapply rand_chunks; eassumption.
Qed.
Lemma Insert_chunks ar ch t set next res rng r rest : randomInsert rng res ch = Ok r rest ->
  chunks rng (Insert ar ch t set next res) rest (loops ar ((t, set) :: next) r).
Proof.
  unfold randomInsert. destruct res as [|x res].
  - intros E. injection E as <- <-. eapply chunks_silent; [reflexivity|apply chunks_end].
  - destruct (rand_Int rng _) as [n rest'| | |] eqn:E; try discriminate. intros H. injection H as <- <-.
    apply (ask_chunks (Insert ar ch t set next (x :: res)) (Z.of_nat (length (x :: res)) + 1) rng n rest' eq_refl E).
Qed.
Lemma pick_chunks set ar next : forall f t res rng r rest, pick f t set ar res rng = Ok r rest ->
  chunks rng (loops ar ((t, set) :: next) res) rest (loops ar next r).
Proof.
  induction f as [|f IH]; intros t res rng r rest E; destruct t as [|t]; cbn [pick] in E.
  - injection E as <- <-. apply chunks_end.
  - discriminate.
  - injection E as <- <-. apply chunks_end.
  - unfold randomElement in E. destruct (rand_Int rng _) as [n rest1| | |] eqn:D; try discriminate.
    pose proof (ask_chunks (Element ar t set next res) (Z.of_nat (length set)) rng n rest1 eq_refl D) as C.
    cbn [drawn] in C. destruct (negb ar && contains res _).
    + eapply chunks_trans; [exact C|]. apply (IH (S t) res rest1 r rest E).
    + destruct (randomInsert rest1 res _) as [r1 rest2| | |] eqn:I; try discriminate.
      eapply chunks_trans; [exact C|]. eapply chunks_trans; [exact (Insert_chunks ar _ t set next res rest1 r1 rest2 I)|]. apply (IH t r1 rest2 r rest E).
Qed.
Lemma Generate_chunks c f rng w rest :
  Generate f (gen c) rng (len c) (numDigits c) (numSymbols c) (noUpper c) (allowRepeat c) = Ok w rest ->
  chunks rng (start c) rest (Finished (Password w)).
Proof.
  unfold Generate, start. destruct (_ <? 0); [discriminate|].
  do 3 (destruct (_ && _); [discriminate|]).
  destruct (pick f _ (letters _ _) _ _ _) as [r1 rng1| | |] eqn:E1; try discriminate.
  destruct (pick f _ (digits _) _ _ _) as [r2 rng2| | |] eqn:E2; try discriminate. intros E3.
  eapply chunks_trans; [apply (pick_chunks _ _ _ _ _ _ _ _ _ E1)|].
  eapply chunks_trans; [apply (pick_chunks _ _ _ _ _ _ _ _ _ E2)|]. apply (pick_chunks _ _ [] _ _ _ _ _ _ E3).
Qed.

(** ** Byte by byte *)
Inductive runs : list Z -> thread -> list Z -> thread -> nat -> Prop :=
| runs_end rng t : runs rng t rng t 0
| runs_turn rng t rng1 t1 rng2 t2 m : turn rng t = Some (rng1, t1) -> runs rng1 t1 rng2 t2 m -> runs rng t rng2 t2 (S m).
Lemma runs_trans rng t rng1 t1 m1 rng2 t2 m2 : runs rng t rng1 t1 m1 -> runs rng1 t1 rng2 t2 m2 -> runs rng t rng2 t2 (m1 + m2).
Proof. induction 1; intros H2; [exact H2|]. cbn. eapply runs_turn; eauto. Qed.
Lemma read_runs s k b max : wants s = Bytes k b max -> forall bs p g rng, bs <> [] -> (length p + length bs = k)%nat ->
  runs (bs ++ rng) {| at_ := s; part := p; got := g |} rng {| at_ := fed s b max (p ++ bs); part := []; got := g ++ bs |} (length bs).
Proof.
  intros W. induction bs as [|x bs IH]; intros p g rng N L; [congruence|]. cbn [length] in L.
  cbn [app length]. eapply runs_turn; [unfold turn; cbn [at_]; rewrite W; reflexivity|].
  unfold receive. cbn [at_ part got]. rewrite app_length. cbn [length]. destruct bs as [|y bs].
  - cbn [length] in L. replace (length p + 1 <? k)%nat with false by (symmetry; apply Nat.ltb_ge; lia). apply runs_end.
  - cbn [length] in L. replace (length p + 1 <? k)%nat with true by (symmetry; apply Nat.ltb_lt; lia).
    specialize (IH (p ++ [x]) (g ++ [x]) rng ltac:(discriminate)). rewrite app_length in IH. cbn [length] in IH. specialize (IH ltac:(lia)).
    rewrite <- !app_assoc in IH. exact IH.
Qed.
Lemma chunks_runs rng s rest s' : chunks rng s rest s' -> forall g, exists u m, rng = u ++ rest /\
  runs rng {| at_ := s; part := []; got := g |} rest {| at_ := s'; part := []; got := g ++ u |} m.
Proof.
  induction 1 as [rng s|rng s s1 rng' s' W C IH|rng s k b max bs rng' s' W L C IH]; intros g.
  - exists [], 0%nat. rewrite app_nil_r. split; [reflexivity|apply runs_end].
  - destruct (IH g) as [u [m [E R]]]. exists u, (S m). split; [exact E|]. eapply runs_turn; [unfold turn; cbn [at_]; rewrite W; reflexivity|exact R].
  - destruct (IH (g ++ bs)) as [u [m [E R]]]. exists (bs ++ u), (length bs + m)%nat. split; [rewrite E, app_assoc; reflexivity|].
    rewrite <- app_assoc in R. eapply runs_trans; [|exact R]. apply (read_runs s k b max W bs [] g rng); [|exact L].
    apply wants_pos in W. intros ->. cbn in L. lia.
Qed.
Lemma runs_det rng t rng1 t1 m1 : runs rng t rng1 t1 m1 -> forall rng2 t2 m2, runs rng t rng2 t2 m2 -> wants (at_ t2) = Stop ->
  exists m, runs rng1 t1 rng2 t2 m.
Proof.
  induction 1 as [rng t|rng t rng1 t1 rng' t' m E R IH]; intros rng2 t2 m2 R2 W; [exists m2; exact R2|].
  inversion R2 as [?|? ? rng3 t3 ? ? m3 E3 R3]; subst.
  - unfold turn in E. rewrite W in E. discriminate.
  - rewrite E in E3. injection E3 as <- <-. eapply IH; eassumption.
Qed.
Lemma turn_app rng t rng1 t1 tl : turn rng t = Some (rng1, t1) -> turn (rng ++ tl) t = Some (rng1 ++ tl, t1).
Proof.
  unfold turn. destruct (wants _); [discriminate|intros E; injection E as <- <-; reflexivity|].
  destruct rng as [|x rng]; [discriminate|]. intros E. injection E as <- <-. reflexivity.
Qed.
Lemma runs_app tl rng t rng1 t1 m : runs rng t rng1 t1 m -> runs (rng ++ tl) t (rng1 ++ tl) t1 m.
Proof. induction 1; [apply runs_end|]. eapply runs_turn; [apply turn_app; eassumption|assumption]. Qed.

(** A Read of several bytes is several turns. *)
Lemma receive_nil t k b max : (length (part t) < k)%nat -> receive t k b max [] = t.
Proof. intros L. unfold receive. rewrite app_nil_r. apply Nat.ltb_lt in L. rewrite L, app_nil_r. destruct t; reflexivity. Qed.
Lemma receive_runs k b max : forall bs t rng, wants (at_ t) = Bytes k b max -> (length (part t) < k)%nat -> (length bs + length (part t) <= k)%nat ->
  runs (bs ++ rng) t rng (receive t k b max bs) (length bs).
Proof.
  induction bs as [|x bs IH]; intros t rng W L1 L2; cbn [length app] in *.
  - rewrite receive_nil by exact L1. apply runs_end.
  - eapply runs_turn; [unfold turn; rewrite W; reflexivity|].
    destruct (Nat.eq_dec (length bs + S (length (part t))) (S (length (part t)))) as [Z0|NZ].
    { assert (bs = []) by (destruct bs; [reflexivity|cbn in Z0; lia]). subst. apply runs_end. }
    assert (E : receive t k b max [x] = {| at_ := at_ t; part := part t ++ [x]; got := got t ++ [x] |}).
    { unfold receive. rewrite app_length. cbn [length]. replace (length (part t) + 1 <? k)%nat with true by (symmetry; apply Nat.ltb_lt; lia). reflexivity. }
    rewrite E. specialize (IH {| at_ := at_ t; part := part t ++ [x]; got := got t ++ [x] |} rng W).
    cbn [part] in IH. rewrite app_length in IH. cbn [length] in IH. specialize (IH ltac:(lia) ltac:(lia)).
    replace (receive t k b max (x :: bs)) with (receive {| at_ := at_ t; part := part t ++ [x]; got := got t ++ [x] |} k b max bs); [exact IH|].
    unfold receive. cbn [at_ part got]. rewrite <- !app_assoc. reflexivity.
Qed.
(** The history of a call that no Read has failed, as a run of its own on its own bytes. *)
Definition historic (c : call) (t : thread) : Prop :=
  at_ t = Finished (Failed ErrReader) \/ (waits_well t /\ exists m, runs (got t) (spawn c) [] t m).
Lemma act_historic c rng t rng' t' : act rng t rng' t' -> historic c t -> historic c t'.
Proof.
  intros A [W|[W [m R]]].
  { destruct A as [? ? ? E|? ? ? ? ? ? E|? ? ? ? ? E]; rewrite W in E; discriminate. }
  destruct A as [rng t s' E|rng t k b max bs E L|rng t k b max E].
  - right. unfold waits_well in W. rewrite E in W. split; [rewrite W; apply fresh_well|]. cbn [got].
    exists (m + 1)%nat. eapply runs_trans; [exact R|]. eapply runs_turn; [unfold turn; rewrite E; reflexivity|apply runs_end].
  - right. unfold waits_well in W. rewrite E in W.
    assert (G : got (receive t k b max bs) = got t ++ bs) by (unfold receive; destruct (_ <? _)%nat; reflexivity).
    split.
    + unfold receive. destruct (length (part t ++ bs) <? k)%nat eqn:F; [|apply fresh_well].
      apply Nat.ltb_lt in F. unfold waits_well. cbn [at_ part]. rewrite E. exact F.
    + rewrite G. exists (m + length bs)%nat. eapply runs_trans; [apply (runs_app bs); exact R|]. cbn [app].
      rewrite <- (app_nil_r bs) at 1. apply receive_runs; assumption.
  - left. reflexivity.
Qed.
Lemma steps_historic calls rng cfg : steps (length calls) (init calls rng) cfg ->
  forall i c, nth_error calls i = Some c -> historic c (snd cfg i).
Proof.
  intros H. remember (init calls rng) as c0 eqn:E0. induction H as [c1|c1 c2 c3 H1 IH H2]; subst.
  - intros i c E. rewrite (init_nth _ _ _ _ E). right. split; [apply fresh_well|]. exists 0%nat. apply runs_end.
  - intros i c E. specialize (IH eq_refl i c E). destruct H2 as [j rng2 T rng3 t' Hj A]. cbn [snd] in *.
    destruct (Nat.eq_dec i j) as [->|N]; [rewrite set_same; eapply act_historic; eassumption|rewrite set_other by exact N; exact IH].
Qed.
Lemma turn_act rng t rng' t' : waits_well t -> turn rng t = Some (rng', t') -> act rng t rng' t' /\ waits_well t'.
Proof.
  unfold turn, waits_well at 1. destruct (wants (at_ t)) as [|s'|k b max] eqn:W; [discriminate| |].
  - intros P E. injection E as <- <-. split; [constructor; exact W|rewrite P; apply fresh_well].
  - intros P. destruct rng as [|x rng]; [discriminate|]. intros E. injection E as <- <-. split.
    + apply (act_read rng t k b max [x] W). cbn. lia.
    + unfold receive. destruct (length (part t ++ [x]) <? k)%nat eqn:F; [|apply fresh_well].
      unfold waits_well. cbn [at_ part]. rewrite W. apply Nat.ltb_lt. exact F.
Qed.
