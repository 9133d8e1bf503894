(** * Proofs: changed modules and changed codewords. *)
From Coq Require Import String.
From Coq Require Import NArith ZArith Arith List Bool Lia.
From Verif Require Import Utf8 Gf256Model Gf256Spec Gf256Proofs RsProofs Gf256Props QrVtab QrModel QrSpec QrBits QrCheck QrInter QrPlan QrStatic QrStatic2 QrDraw QrRead QrProps QrDamageSpec.
Import ListNotations.
Local Open Scope nat_scope.

(** ** Bits and modules *)
Fixpoint bdiff (a b : list bool) : nat :=
  match a, b with x :: a', y :: b' => (if xorb x y then 1 else 0) + bdiff a' b' | _, _ => 0 end.
Lemma bdiff_split k : forall a b, bdiff (firstn k a) (firstn k b) + bdiff (skipn k a) (skipn k b) = bdiff a b.
Proof. induction k as [|k IH]; intros [|x a] [|y b]; cbn [firstn skipn bdiff]; try lia; try (destruct (skipn k _); cbn; lia). specialize (IH a b). lia. Qed.
Lemma bdiff_cells (f g h : nat * nat -> bool) cells : bdiff (map (fun c => xorb (f c) (h c)) cells) (map (fun c => xorb (g c) (h c)) cells) = length (filter (fun c => xorb (f c) (g c)) cells).
Proof. induction cells as [|c cells IH]; [reflexivity|]. cbn [map bdiff filter]. rewrite IH. destruct (f c), (g c), (h c); reflexivity. Qed.
Lemma filter_incl_le {A} (p : A -> bool) a b : NoDup a -> incl a b -> length (filter p a) <= length (filter p b).
Proof. intros N I. apply NoDup_incl_length; [apply NoDup_filter, N|]. intros x H. apply filter_In in H. apply filter_In. split; [apply I, H|apply H]. Qed.
Lemma cells_changed v (f g : nat -> nat -> bool) h : 1 <= v ->
  bdiff (map (fun c => xorb (f (fst c) (snd c)) (h c)) (data_cells v)) (map (fun c => xorb (g (fst c) (snd c)) (h c)) (data_cells v)) <= changed (side v) f g.
Proof.
  intros Hv. rewrite (bdiff_cells (fun c => f (fst c) (snd c)) (fun c => g (fst c) (snd c))). unfold changed. apply filter_incl_le.
  - rewrite data_cells_eq. apply NoDup_filter, placement_NoDup, Hv.
  - intros [y x] I. destruct (data_cell_lt v _ Hv I) as [[Hy Hx] _]. cbn [fst snd] in *. apply in_prod; apply in_seq; lia.
Qed.
(** ** Codewords *)
Lemma bdiff_zero a : forall b, length a = length b -> bdiff a b = 0 -> a = b.
Proof. induction a as [|x a IH]; intros [|y b] L E; try discriminate; [reflexivity|]. cbn [bdiff] in E. injection L as L. f_equal; [destruct x, y; cbn in E; congruence || lia|apply IH; [exact L|lia]]. Qed.
Lemma bytes_diff fuel : forall a b, length a = length b -> length (bytes_of_bits fuel a) = length (bytes_of_bits fuel b) /\ hamming (bytes_of_bits fuel a) (bytes_of_bits fuel b) <= bdiff a b.
Proof.
  induction fuel as [|k IH]; intros a b L; [cbn; lia|]. destruct a as [|x a], b as [|y b]; try discriminate; [cbn; lia|].
  set (p := x :: a) in *. set (q := y :: b) in *. assert (E : bytes_of_bits (S k) p = bits_val (firstn 8 p) :: bytes_of_bits k (skipn 8 p)) by reflexivity.
  assert (E' : bytes_of_bits (S k) q = bits_val (firstn 8 q) :: bytes_of_bits k (skipn 8 q)) by reflexivity. rewrite E, E'. clear E E'.
  destruct (IH (skipn 8 p) (skipn 8 q)) as [A B]; [rewrite !skipn_length; lia|]. cbn [length hamming]. split; [lia|]. pose proof (bdiff_split 8 p q) as BS.
  assert ((if N.eqb (bits_val (firstn 8 p)) (bits_val (firstn 8 q)) then 0 else 1) <= bdiff (firstn 8 p) (firstn 8 q)); [|lia].
  destruct (Nat.eq_dec (bdiff (firstn 8 p) (firstn 8 q)) 0) as [Z|Z]; [|destruct (N.eqb _ _); lia].
  apply bdiff_zero in Z; [|rewrite !firstn_length; lia]. rewrite Z, N.eqb_refl. lia.
Qed.
Lemma hamming_cut k : forall a b, hamming (firstn k a) (firstn k b) + hamming (skipn k a) (skipn k b) = hamming a b.
Proof. induction k as [|k IH]; intros [|x a] [|y b]; cbn [firstn skipn hamming]; try lia; try (destruct (skipn k _); cbn; lia). specialize (IH a b). lia. Qed.
Lemma hamming_app a1 : forall b1 a2 b2, length a1 = length b1 -> hamming (a1 ++ a2) (b1 ++ b2) = hamming a1 b1 + hamming a2 b2.
Proof. induction a1 as [|x a IH]; intros [|y b] a2 b2 L; try discriminate; [reflexivity|]. cbn [app hamming]. rewrite IH by (injection L as L; exact L). lia. Qed.
(** ** Blocks *)
Definition samelen (a b : list N) : Prop := length a = length b.
Fixpoint hs (a b : list (list N)) : nat := match a, b with x :: a', y :: b' => hamming x y + hs a' b' | _, _ => 0 end.
Lemma deal_diff i lens : forall x y b1 r1 b2 r2, length x = length y -> deal i lens x = (b1, r1) -> deal i lens y = (b2, r2) ->
  Forall2 samelen b1 b2 /\ length b1 = length lens /\ length r1 = length r2 /\ hs b1 b2 + hamming r1 r2 = hamming x y.
Proof.
  induction lens as [|n lens IH]; intros x y b1 r1 b2 r2 L E1 E2; cbn [deal] in E1, E2.
  - injection E1 as <- <-. injection E2 as <- <-. cbn. auto.
  - destruct (i <? n).
    + destruct x as [|a x], y as [|b y]; try discriminate.
      * destruct (deal i lens []) as [bs rest] eqn:D. injection E1 as <- <-. injection E2 as <- <-. destruct (IH [] [] _ _ _ _ eq_refl D D) as [A [B [C H]]]. split; [constructor; [reflexivity|exact A]|]. cbn [length hs hamming] in *. split; [lia|]. split; [lia|]. lia.
      * destruct (deal i lens x) as [bs1 rest1] eqn:D1. destruct (deal i lens y) as [bs2 rest2] eqn:D2. injection E1 as <- <-. injection E2 as <- <-. injection L as L. destruct (IH _ _ _ _ _ _ L D1 D2) as [A [B [C H]]].
        split; [constructor; [reflexivity|exact A]|]. cbn [length hs hamming] in *. split; [lia|]. split; [lia|]. lia.
    + destruct (deal i lens x) as [bs1 rest1] eqn:D1. destruct (deal i lens y) as [bs2 rest2] eqn:D2. injection E1 as <- <-. injection E2 as <- <-. destruct (IH _ _ _ _ _ _ L D1 D2) as [A [B [C H]]].
      split; [constructor; [reflexivity|exact A]|]. cbn [length hs hamming] in *. split; [lia|]. split; [lia|]. lia.
Qed.
Lemma zip_diff a1 : forall a2 b1 b2, Forall2 samelen a1 a2 -> Forall2 samelen b1 b2 -> length a1 = length b1 ->
  Forall2 samelen (zip_app a1 b1) (zip_app a2 b2) /\ length (zip_app a1 b1) = length a1 /\ hs (zip_app a1 b1) (zip_app a2 b2) = hs a1 a2 + hs b1 b2.
Proof.
  induction a1 as [|x a1 IH]; intros a2 b1 b2 FA FB L; inversion FA as [|? x' ? a2' Ex Fa]; subst; destruct b1 as [|y b1]; try discriminate; inversion FB as [|? y' ? b2' Ey Fb]; subst; [cbn; auto|].
  injection L as L. destruct (IH _ _ _ Fa Fb L) as [A [B C]]. cbn [zip_app length hs]. split; [constructor; [unfold samelen in *; rewrite !app_length; lia|exact A]|]. split; [lia|]. rewrite hamming_app by exact Ex. lia.
Qed.
Lemma deinterleave_diff lens : forall todo i x y, length x = length y ->
  Forall2 samelen (deinterleave todo i lens x) (deinterleave todo i lens y) /\ length (deinterleave todo i lens x) = length lens /\ hs (deinterleave todo i lens x) (deinterleave todo i lens y) <= hamming x y.
Proof.
  induction todo as [|k IH]; intros i x y L; cbn [deinterleave].
  - assert (G : forall ls : list nat, Forall2 samelen (map (fun _ => []) ls) (map (fun _ => []) ls) /\ hs (map (fun _ => []) ls) (map (fun _ => []) ls) = 0) by (induction ls as [|n ls [A B]]; cbn; [auto|split; [constructor; [reflexivity|exact A]|exact B]]).
    destruct (G lens) as [A B]. split; [exact A|]. split; [apply map_length|lia].
  - destruct (deal i lens x) as [b1 r1] eqn:D1. destruct (deal i lens y) as [b2 r2] eqn:D2. destruct (deal_diff _ _ _ _ _ _ _ _ L D1 D2) as [A [B [C H]]]. destruct (IH (S i) r1 r2 C) as [A' [B' H']].
    destruct (zip_diff _ _ _ _ A A' ltac:(lia)) as [A'' [B'' H'']]. split; [exact A''|]. split; [lia|lia].
Qed.
Lemma blocks_diff lens x y : length x = length y -> Forall2 samelen (blocks_of lens x) (blocks_of lens y) /\ length (blocks_of lens x) = length lens /\ hs (blocks_of lens x) (blocks_of lens y) <= hamming x y.
Proof. apply deinterleave_diff. Qed.
Definition shape (a b : list N * list N) : Prop := samelen (fst a) (fst b) /\ samelen (snd a) (snd b).
Fixpoint ws (a b : list (list N * list N)) : nat := match a, b with x :: a', y :: b' => hamming (word x) (word y) + ws a' b' | _, _ => 0 end.
Lemma combine_diff d1 : forall d2 c1 c2, Forall2 samelen d1 d2 -> Forall2 samelen c1 c2 -> Forall2 shape (combine d1 c1) (combine d2 c2) /\ ws (combine d1 c1) (combine d2 c2) <= hs d1 d2 + hs c1 c2.
Proof.
  induction d1 as [|x d1 IH]; intros d2 c1 c2 FD FC; inversion FD as [|? x' ? d2' Ex Fd]; subst; [cbn; split; [constructor|lia]|].
  inversion FC as [|y y' c1' c2' Ey Fc]; subst; [cbn; split; [constructor|lia]|]. destruct (IH _ _ _ Fd Fc) as [A B]. cbn [combine ws hs]. split; [constructor; [split; assumption|exact A]|].
  unfold word at 1 2. cbn [fst snd]. rewrite hamming_app by exact Ex. lia.
Qed.
Lemma Some_eq {A} (a b : A) : Some a = Some b -> a = b.
Proof. congruence. Qed.
Local Opaque side data_cells is_function read_format format_cell1 format_cell2 placement.
(** Two pictures read with the same level and mask: the blocks differ in no more codewords than there are changed modules. *)
Lemma reading_diff n f g r1 r2 : read_symbol n f = Some r1 -> read_symbol n g = Some r2 -> rd_level r1 = rd_level r2 -> rd_mask r1 = rd_mask r2 ->
  Forall2 shape (rd_blocks r1) (rd_blocks r2) /\ ws (rd_blocks r1) (rd_blocks r2) <= changed n f g.
Proof.
  unfold read_symbol. set (v := (n - 17) / 4). destruct ((n =? side v) && (1 <=? v) && (v <=? 40)) eqn:B; [|discriminate]. cbn [negb].
  apply andb_true_iff in B. destruct B as [B V40]. apply andb_true_iff in B. destruct B as [B V1]. apply Nat.eqb_eq in B. apply Nat.leb_le in V1, V40.
  destruct (read_format n f) as [[l m]|]; [|discriminate]. destruct (read_format n g) as [[l' m']|]; [|discriminate]. intros E1 E2. apply Some_eq in E1, E2. subst r1 r2. cbn [rd_level rd_mask rd_blocks]. intros <- <-.
  clearbody v. subst n. pose proof (cells_changed v f g (fun c => mask_bit m (fst c) (snd c)) V1) as CC.
  set (b1 := map (fun c => xorb (f (fst c) (snd c)) (mask_bit m (fst c) (snd c))) (data_cells v)) in *. set (b2 := map (fun c => xorb (g (fst c) (snd c)) (mask_bit m (fst c) (snd c))) (data_cells v)) in *. assert (LB : length b1 = length b2) by (unfold b1, b2; rewrite !map_length; reflexivity). clearbody b1 b2.
  destruct (bytes_diff (total_codewords v) (firstn (8 * total_codewords v) b1) (firstn (8 * total_codewords v) b2)) as [L H]; [rewrite !firstn_length; lia|].
  set (w1 := bytes_of_bits _ (firstn _ b1)) in *. set (w2 := bytes_of_bits _ (firstn _ b2)) in *. clearbody w1 w2.
  pose proof (bdiff_split (8 * total_codewords v) b1 b2) as P1. pose proof (hamming_cut (data_codewords v l) w1 w2) as P2.
  destruct (blocks_diff (block_lengths v l) (firstn (data_codewords v l) w1) (firstn (data_codewords v l) w2)) as [A1 [_ H1]]; [rewrite !firstn_length; lia|].
  destruct (blocks_diff (repeat (ecc_per_block v l) (num_blocks v l)) (skipn (data_codewords v l) w1) (skipn (data_codewords v l) w2)) as [A2 [_ H2]]; [rewrite !skipn_length; lia|].
  destruct (combine_diff _ _ _ _ A1 A2) as [A3 H3]. split; [exact A3|lia].
Qed.

(** ** Reed-Solomon blocks *)
Lemma far_blocks k : forall a b, Forall2 shape a b -> Forall (rs_block k) a -> Forall (rs_block k) b -> Forall (fun x => length (word x) <= 255) a -> a <> b -> k < ws a b.
Proof.
  pose proof (NewField_good _ _ _ QField_ok) as [G _].
  induction a as [|x a IH]; intros b F RA RB LA N; inversion F as [|? y ? b' [S1 S2] F']; subst; [contradiction|].
  inversion RA as [|? ? X RA']; subst. inversion RB as [|? ? Y RB']; subst. inversion LA as [|? ? Lx LA']; subst. cbn [ws].
  destruct (list_eq_dec N.eq_dec (word x) (word y)) as [E|Ne].
  - assert (Exy : x = y). { destruct x as [d c], y as [d' c']. unfold word, samelen in *. cbn [fst snd] in *. assert (d = d' /\ c = c') as [-> ->]; [|reflexivity].
      clear - E S1. revert d' S1 E. induction d as [|z d IH]; intros [|z' d'] L E; try discriminate; [auto|]. cbn [app] in E. injection E as -> E. injection L as L. destruct (IH d' L E) as [-> ->]. auto. }
    subst y. assert (a <> b') by (intros ->; contradiction). specialize (IH b' F' RA' RB' LA' H). lia.
  - destruct X as [_ [X1 [X2 Xh]]]. destruct Y as [_ [Y1 [Y2 Yh]]].
    pose proof (codewords_far _ _ _ G k (word x) (word y)) as D. specialize (D ltac:(unfold word, samelen in *; rewrite !app_length; lia) Lx ltac:(apply Forall_app; auto) ltac:(apply Forall_app; auto) Xh Yh Ne). lia.
Qed.
Lemma ws_close k : forall a b, Forall2 shape a b -> 2 * ws a b <= k -> Forall2 (close k) a b.
Proof.
  induction a as [|x a IH]; intros b F W; inversion F as [|? y ? b' [S1 S2] F']; subst; constructor.
  - cbn [ws] in W. unfold close. split; [unfold word, samelen in *; rewrite !app_length; lia|lia].
  - apply IH; [exact F'|]. cbn [ws] in W. lia.
Qed.
(** What Encode makes, in terms of blocks. *)
Lemma encoded t l c : Forall byteb t -> l <= 3 -> Encode t l = Ok c -> exists v dat, 1 <= v <= 40 /\ Size c = side v
  /\ let r0 := {| rd_version := v; rd_level := l; rd_mask := 0; rd_blocks := code_blocks v l dat |} in
     read_symbol (side v) (black_of c) = Some r0 /\ read_text (side v) (black_of c) = Some (l, t)
     /\ Forall (rs_block (ecc_per_block v l)) (rd_blocks r0) /\ Forall (fun x => length (word x) <= 255) (rd_blocks r0).
Proof.
  intros B Hl E. destruct (Encode_cases t l B Hl) as [[E' _]|[v [c' [dat [Hv [F [M [E' [Sz [Ld [Bd [_ [RS RT]]]]]]]]]]]]]; rewrite E in E'; [discriminate|].
  injection E' as <-. exists v, dat. split; [exact Hv|]. split; [exact Sz|]. cbv zeta. split; [exact RS|]. split; [exact RT|]. cbn [rd_blocks].
  destruct (tables v l Hv Hl) as [_ ->]. destruct (sizes v l Hv Hl) as [_ [_ [_ [_ Sm]]]]. pose proof (NewField_good _ _ _ QField_ok) as [G _].
  assert (Lens : Forall (fun d => length d <= S (DataBytes v l / nblock v l)) (chunks (code_lens v l) dat)).
  { destruct (code_lens_sum v l Hv Hl) as [Su _]. apply Forall_forall. intros d Hd. etransitivity; [|apply code_lens_max]. rewrite <- (chunks_lengths (code_lens v l) dat) by lia.
    apply list_max_ge. apply in_map. exact Hd. }
  unfold code_blocks. split; apply Forall_forall; intros blk Hb; apply in_map_iff in Hb; destruct Hb as [d [<- Hd]].
  - apply rem_block. apply Forall_forall. intros z Hz. rewrite Forall_forall in Bd. apply Bd. eapply chunks_incl; eassumption.
  - unfold word. cbn [fst snd]. rewrite app_length, (rem_length _ _ _ G). rewrite Forall_forall in Lens. specialize (Lens d Hd). lia.
Qed.
Lemma changed_triangle n f g h : changed n f h <= changed n f g + changed n g h.
Proof.
  unfold changed. induction (list_prod (seq 0 n) (seq 0 n)) as [|[y x] ps IH]; [cbn; lia|]. cbn [filter fst snd]. destruct (f y x), (g y x), (h y x); cbn [xorb length]; lia.
Qed.
Lemma changed_sym n f g : changed n f g = changed n g f.
Proof. unfold changed. f_equal. apply filter_ext. intros a. apply xorb_comm. Qed.
