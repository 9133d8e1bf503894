(** * Drawing, and reading back. *)
From Coq Require Import String.
From Coq Require Import NArith ZArith Arith List Bool Lia.
From Verif Require Import Utf8 Gf256Model Gf256Spec Gf256Proofs RsProofs Gf256Props QrVtab QrModel QrSpec QrBits QrCheck QrInter QrPlan QrStatic QrStatic2.
Import ListNotations.
Open Scope nat_scope.

(** ** The bitmap *)
Definition pixbit (r : list N) (j : nat) : bool := N.testbit (nth (j / 8) r 0%N) (N.of_nat (7 - j mod 8)).
Lemma pixbit_set r x j : x / 8 < length r ->
  pixbit (upd r (x / 8) (N.lor (nth (x / 8) r 0%N) (N.shiftl 1 (N.of_nat (7 - x mod 8))))) j = pixbit r j || (x =? j).
Proof.
  intros H. unfold pixbit. destruct (Nat.eq_dec (x / 8) (j / 8)) as [E|E].
  - rewrite E, upd_same by lia. rewrite N.lor_spec, N.shiftl_1_l, N.pow2_bits_eqb. f_equal.
    pose proof (Nat.mod_upper_bound x 8 ltac:(lia)). pose proof (Nat.mod_upper_bound j 8 ltac:(lia)).
    pose proof (Nat.div_mod x 8 ltac:(lia)) as Dx. pose proof (Nat.div_mod j 8 ltac:(lia)) as Dj. rewrite E in Dx.
    destruct (Nat.eqb_spec x j) as [->|N]; [apply N.eqb_refl|]. apply N.eqb_neq. intros X. apply N. lia.
  - rewrite upd_other by exact E. destruct (Nat.eqb_spec x j) as [->|N]; [congruence|]. rewrite orb_false_r. reflexivity.
Qed.
Lemma draw_row_ok bytes : forall row x crow bs, map (drawn bytes) row = map Some bs -> x + length row <= 8 * length crow ->
  exists r, draw_row bytes x row crow = Some r /\ length r = length crow
    /\ forall j, pixbit r j = pixbit crow j || ((x <=? j) && nth (j - x) bs false).
Proof.
  induction row as [|p row IH]; intros x crow bs E L.
  - destruct bs; [|discriminate]. exists crow. cbn [draw_row]. split; [reflexivity|]. split; [reflexivity|]. intros j.
    destruct (j - x); rewrite andb_false_r, orb_false_r; reflexivity.
  - destruct bs as [|b bs]; [discriminate|]. cbn [map] in E. inversion E as [[E1 E2]]. cbn [draw_row length] in *. rewrite E1.
    assert (Hx : x / 8 < length crow) by (apply Nat.div_lt_upper_bound; lia).
    set (crow' := if b then upd crow (x / 8) (N.lor (nth (x / 8) crow 0%N) (N.shiftl 1 (N.of_nat (7 - x mod 8)))) else crow).
    assert (Lc : length crow' = length crow) by (unfold crow'; destruct b; [apply upd_length|reflexivity]).
    destruct (IH (S x) crow' bs E2 ltac:(lia)) as [r [Er [Lr Pr]]]. exists r. split; [exact Er|]. split; [lia|]. intros j. rewrite Pr.
    assert (Pc : pixbit crow' j = pixbit crow j || (b && (x =? j))).
    { unfold crow'. destruct b; cbn [andb]; [apply pixbit_set; exact Hx|rewrite orb_false_r; reflexivity]. }
    rewrite Pc, <- orb_assoc. f_equal. destruct (Nat.leb_spec (S x) j), (Nat.leb_spec x j), (Nat.eqb_spec x j); try lia; cbn [andb orb].
    + replace (j - x) with (S (j - S x)) by lia. rewrite andb_false_r. reflexivity.
    + subst j. rewrite Nat.sub_diag, andb_true_r, orb_false_r. reflexivity.
Qed.
Lemma draw_rows_ok bytes n stride : n <= 8 * stride -> forall rows bss, Forall (fun r => length r = n) rows ->
  map (map (drawn bytes)) rows = map (map Some) bss ->
  exists bm, draw_rows bytes stride rows = Some bm /\ length bm = length rows * stride
    /\ forall y x, y < length rows -> x < n -> N.testbit (nth (y * stride + x / 8) bm 0%N) (N.of_nat (7 - x mod 8)) = nth x (nth y bss []) false.
Proof.
  intros Hn. induction rows as [|row rows IH]; intros bss F E.
  - exists []. split; [reflexivity|]. split; [reflexivity|]. intros y x Hy. cbn in Hy. lia.
  - destruct bss as [|bs bss]; [discriminate|]. cbn [map] in E. inversion E as [[E1 E2]]. inversion F as [|? ? LR F']; subst.
    destruct (draw_row_ok bytes row 0 (repeat 0%N stride) bs E1 ltac:(rewrite repeat_length; lia)) as [r [Er [Lr Pr]]].
    destruct (IH bss F' E2) as [bm [Eb [Lb Pb]]]. cbn [draw_rows]. rewrite Er, Eb. exists (r ++ bm). split; [reflexivity|].
    rewrite repeat_length in Lr. split; [rewrite app_length, Lb, Lr; cbn; lia|]. intros y x Hy Hx.
    assert (Hx8 : x / 8 < stride) by (apply Nat.div_lt_upper_bound; lia).
    destruct y as [|y].
    + cbn [Nat.mul Nat.add nth]. rewrite app_nth1 by lia. specialize (Pr x). unfold pixbit in Pr at 1. rewrite Pr. cbn [Nat.leb andb]. rewrite Nat.sub_0_r.
      replace (pixbit (repeat 0%N stride) x) with false; [reflexivity|]. unfold pixbit. rewrite nth_repeat. symmetry. apply N.bits_0.
    + cbn [nth length] in *. rewrite app_nth2 by (rewrite Lr; cbn; lia). rewrite Lr. replace (S y * stride + x / 8 - stride) with (y * stride + x / 8) by (cbn; lia).
      apply Pb; lia.
Qed.

(** ** Every cell of the placement *)
Lemma placement_covers v y x : 1 <= v -> y < side v -> x < side v -> x <> 6 -> In (y, x) (placement (side v)).
Proof.
  intros Hv Hy Hx Nx. unfold placement. set (n := side v) in *. assert (Hn : n = 2 * (8 + 2 * v) + 1) by (unfold n, side; lia).
  assert (Hh : (n - 1) / 2 = 8 + 2 * v) by (rewrite Hn; replace (2 * (8 + 2 * v) + 1 - 1) with ((8 + 2 * v) * 2) by lia; apply Nat.div_mul; lia).
  rewrite Hh. apply in_flat_map.
  assert (K : exists k, k < 8 + 2 * v /\ (pair_right n k = x \/ pair_right n k = S x)).
  { pose proof (Nat.div_mod x 2 ltac:(lia)) as D. pose proof (Nat.mod_upper_bound x 2 ltac:(lia)) as B. set (q := x / 2) in *. set (r := x mod 2) in *.
    destruct (Nat.le_gt_cases x 6) as [H6|H6].
    - exists (8 + 2 * v - S q). split; [lia|]. unfold pair_right. destruct (Nat.leb_spec (n - 1 - 2 * (8 + 2 * v - S q)) 6); lia.
    - exists (8 + 2 * v - (q + r)). split; [lia|]. unfold pair_right. destruct (Nat.leb_spec (n - 1 - 2 * (8 + 2 * v - (q + r))) 6); lia. }
  destruct K as [k [Hk P]]. exists k. split; [apply in_seq; lia|]. apply in_flat_map. exists y. split.
  - destruct (Nat.even k); [apply -> in_rev|]; apply in_seq; lia.
  - destruct P as [<-|P]; [left; reflexivity|right; left; rewrite P; f_equal; lia].
Qed.
Lemma timing_col v y : is_function v y 6 = true.
Proof. unfold is_function. destruct (finder_centre v y 6); [reflexivity|]. destruct (align_centre v y 6); [reflexivity|]. unfold is_timing. destruct (y =? 6); reflexivity. Qed.
Lemma data_cell_in v y x : 1 <= v -> y < side v -> x < side v -> is_function v y x = false -> In (y, x) (data_cells v).
Proof.
  intros Hv Hy Hx Fn. unfold data_cells. apply filter_In. cbn [fst snd]. rewrite Fn. split; [|reflexivity]. apply placement_covers; auto.
  intros ->. rewrite timing_col in Fn. discriminate.
Qed.
Lemma data_cell_lt v c : 1 <= v -> In c (data_cells v) -> cell_lt (side v) c /\ is_function v (fst c) (snd c) = false.
Proof.
  intros Hv H. unfold data_cells in H. apply filter_In in H. destruct H as [H1 H2]. pose proof (placement_lt v Hv) as PL. rewrite Forall_forall in PL.
  split; [apply PL; exact H1|]. destruct (is_function v (fst c) (snd c)); [discriminate|reflexivity].
Qed.
Lemma bytes_of_bits_flat bs : forall fuel, Forall byteb bs -> length bs <= fuel -> bytes_of_bits fuel (flat bs) = bs.
Proof.
  induction bs as [|b bs IH]; intros fuel F L; [destruct fuel; reflexivity|]. destruct fuel as [|fuel]; [cbn in L; lia|]. inversion F as [|? ? Hb F']; subst.
  cbn [flat_map]. destruct (bits_of 8 b ++ flat bs) as [|z zs] eqn:E; [apply (f_equal (@length bool)) in E; rewrite app_length, bits_of_length in E; cbn in E; lia|].
  cbn [bytes_of_bits]. rewrite <- E. f_equal.
  - replace 8 with (length (bits_of 8 b)) at 1 by apply bits_of_length. rewrite firstn_app, firstn_all, Nat.sub_diag. cbn [firstn]. rewrite app_nil_r, bits_val_of. apply N.mod_small. exact Hb.
  - rewrite skipn_app, bits_of_length. rewrite skipn_all2 by (rewrite bits_of_length; lia). cbn [Nat.sub skipn app]. apply IH; [exact F'|cbn in L; lia].
Qed.
Lemma chunks_repeat_flat_map {A B} (f : A -> list B) c ds : (forall d, length (f d) = c) -> chunks (repeat c (length ds)) (flat_map f ds) = map f ds.
Proof.
  intros H. induction ds as [|d ds IH]; [reflexivity|]. cbn [length repeat chunks flat_map map].
  rewrite firstn_app, skipn_app, H, Nat.sub_diag. rewrite firstn_all2, skipn_all2 by (rewrite H; lia). cbn [firstn skipn app]. rewrite app_nil_r, IH. reflexivity.
Qed.
Lemma combine_map {A B} (f : A -> B) l : combine l (map f l) = map (fun x => (x, f x)) l.
Proof. induction l as [|x l IH]; [reflexivity|]. cbn. rewrite IH. reflexivity. Qed.

(** ** The drawn symbol *)
Definition black_of (c : Code) (y x : nat) : bool := Black c (Z.of_nat x) (Z.of_nat y).
Definition code_blocks (v l : nat) (dat : list N) : list (list N * list N) :=
  map (fun d => (d, rem QField (ncheck v l) d)) (chunks (code_lens v l) dat).

Lemma drawn_function bytes p : maskable p = false -> drawn bytes p = Some (black p).
Proof. unfold maskable, drawn. destruct (role p); intros H; try discriminate; reflexivity. Qed.
Lemma drawn_masked bytes p b (i : bool) : maskable p = true -> black p = false ->
  (match role p with RExtra => b = false | _ => bit_at bytes (offset p) = Some b end) ->
  drawn bytes (if maskable p && i then flip p else p) = Some (xorb i b).
Proof.
  intros M B H. rewrite M. unfold maskable in M. destruct i; cbn [andb].
  - unfold drawn, flip. cbn [role black offset]. rewrite B. destruct (role p); try discriminate; rewrite ?H; reflexivity.
  - unfold drawn. rewrite B. destruct (role p); try discriminate; rewrite ?H; destruct b; try discriminate; reflexivity.
Qed.

Lemma format_cells_lt v i : 1 <= v -> i < 15 -> (fst (format_cell1 i) < side v /\ snd (format_cell1 i) < side v)
  /\ (fst (format_cell2 (side v) i) < side v /\ snd (format_cell2 (side v) i) < side v).
Proof.
  intros Hv Hi. unfold format_cell1, format_cell2, side. destruct (Nat.ltb_spec i 6), (Nat.eqb_spec i 6), (Nat.eqb_spec i 7), (Nat.eqb_spec i 8), (Nat.ltb_spec i 8); cbn [fst snd]; lia.
Qed.
Local Opaque side data_cells is_function function_colour read_format format_cell1 format_cell2.
Lemma draw_plan v l m dat chk : 1 <= v <= 40 -> l <= 3 -> m <= 7 -> length dat = DataBytes v l -> length chk = nblock v l * ncheck v l ->
  exists p bm, NewPlan v l m = Some p /\ p_version p = v /\ p_level p = l /\ p_DataBytes p = DataBytes v l /\ length (p_Pixel p) = side v
    /\ draw_rows (dat ++ chk) ((side v + 7) / 8 * 8) (p_Pixel p) = Some bm
    /\ let c := {| Bitmap := bm; Size := side v; Stride := (side v + 7) / 8 * 8 |} in
       (forall y x, y < side v -> x < side v -> is_function v y x = true -> match function_colour v y x with Some b => black_of c y x = b | None => True end)
       /\ read_format (side v) (black_of c) = Some (l, m)
       /\ firstn (8 * vbytes (vt v)) (map (fun q => xorb (black_of c (fst q) (snd q)) (mask_bit m (fst q) (snd q))) (data_cells v))
          = flat (symbol_order v l dat chk).
Proof.
  intros Hv Hl Hm Ld Lc. destruct (plan_ok v l m Hv Hl Hm) as [px [g [Ep [En [W [Md [Ff [Rf Fc]]]]]]]].
  destruct (lplan_bits_ok v l Hv Hl) as [px' [Ep' [Lp [Cp Vp]]]]. rewrite Ep in Ep'. inversion Ep'; subst px'; clear Ep'.
  specialize (Vp dat chk Ld Lc). pose proof (data_cells_count v Hv) as DC.
  set (bytes := dat ++ chk) in *. set (so := flat (symbol_order v l dat chk)) in *.
  assert (Lso : length so = 8 * vbytes (vt v)) by (unfold so; rewrite flat_length, symbol_order_length; auto).
  set (stream := so ++ repeat false 7).
  (* the k-th data cell *)
  assert (DK : forall k, k < length (data_cells v) -> let q := nth k (data_cells v) (0, 0) in
     drawn bytes (cell (mplan m g) (fst q) (snd q)) = Some (xorb (mask_bit m (fst q) (snd q)) (nth k stream false))).
  { intros k Hk q. assert (Iq : In q (data_cells v)) by (apply nth_In; exact Hk). destruct (data_cell_lt v q ltac:(lia) Iq) as [[Hy Hx] _].
    rewrite (mplan_cell (side v)) by assumption.
    assert (Cq : cell g (fst q) (snd q) = nth k (src_of px) (pix NoRole false)).
    { pose proof (f_equal (fun l => nth k l (pix NoRole false)) Md) as X. cbv beta in X.
      assert (Lf : length (src_of px) = 8 * vbytes (vt v) + 7) by (unfold src_of; rewrite app_length, repeat_length, Lp; reflexivity).
      rewrite (nth_indep _ _ (cell g (fst (0, 0)) (snd (0, 0)))) in X by (rewrite map_length; exact Hk).
      rewrite (map_nth (fun c => cell g (fst c) (snd c))) in X. fold q in X. rewrite X.
      rewrite <- (firstn_skipn (length (data_cells v)) (src_of px)) at 2. rewrite app_nth1; [reflexivity|]. rewrite firstn_length. lia. }
    rewrite Cq. rewrite mask_same by exact Hm. unfold src_of, stream. destruct (Nat.lt_ge_cases k (length px)) as [H|H].
    - rewrite !app_nth1 by lia. rewrite Forall_forall in Cp. specialize (Cp (nth k px (pix NoRole false)) (nth_In _ _ H)). destruct Cp as [R [B _]].
      apply drawn_masked; [unfold maskable; destruct R as [-> | ->]; reflexivity|exact B|].
      assert (X : bit_at bytes (offset (nth k px (pix NoRole false))) = Some (nth k so false)).
      { pose proof (f_equal (fun l => nth k l None) Vp) as X. cbv beta in X.
        rewrite (nth_indep _ _ ((fun p => bit_at bytes (offset p)) (pix NoRole false))) in X by (rewrite map_length; exact H).
        rewrite (map_nth (fun p => bit_at bytes (offset p))) in X. rewrite X. rewrite (nth_indep _ None (Some false)) by (rewrite map_length; lia). apply map_nth. }
      destruct R as [-> | ->]; exact X.
    - rewrite !app_nth2 by lia. assert (Hr : k - length px < 7) by lia.
      replace (nth (k - length px) (repeat (pix RExtra false) 7) (pix NoRole false)) with (pix RExtra false).
      2:{ symmetry. apply (repeat_spec 7). apply nth_In. rewrite repeat_length. exact Hr. }
      apply drawn_masked; [reflexivity|reflexivity|]. cbn [role pix]. replace (k - length so) with (k - length px) by lia. apply nth_repeat. }
  (* every cell *)
  assert (DA : forall y x, y < side v -> x < side v -> exists b, drawn bytes (cell (mplan m g) y x) = Some b).
  { intros y x Hy Hx. destruct (is_function v y x) eqn:Fn.
    - rewrite (mplan_cell (side v)) by assumption. destruct (Ff y x Hy Hx Fn) as [M _]. rewrite M. cbn [andb]. eexists. apply drawn_function. exact M.
    - pose proof (data_cell_in v y x ltac:(lia) Hy Hx Fn) as I1. destruct (In_nth _ _ (0, 0) I1) as [k [Hk E]]. pose proof (DK k Hk) as X. cbv zeta in X. rewrite E in X. eexists. exact X. }
  pose proof (mplan_wf _ m _ W) as W'.
  assert (BS : exists bss, map (map (drawn bytes)) (mplan m g) = map (map Some) bss).
  { assert (G : forall rows : Grid, (forall r p, In r rows -> In p r -> exists b, drawn bytes p = Some b) -> exists bss, map (map (drawn bytes)) rows = map (map Some) bss).
    { clear. assert (G1 : forall r : list Pixel, (forall p, In p r -> exists b, drawn bytes p = Some b) -> exists bs, map (drawn bytes) r = map Some bs).
      { induction r as [|p r IH]; intros H; [exists []; reflexivity|]. destruct (H p (or_introl eq_refl)) as [b Hb]. destruct IH as [bs Hbs]; [intros; apply H; right; assumption|].
        exists (b :: bs). cbn. rewrite Hb, Hbs. reflexivity. }
      induction rows as [|r rows IH]; intros H; [exists []; reflexivity|]. destruct (G1 r) as [bs Hbs]; [intros p Hp; apply (H r p); [left; reflexivity|exact Hp]|].
      destruct IH as [bss Hbss]; [intros r' p Hr Hp; apply (H r' p); [right; exact Hr|exact Hp]|]. exists (bs :: bss). cbn. rewrite Hbs, Hbss. reflexivity. }
    apply G. intros r p Hr Hp. destruct W' as [L F]. destruct (In_nth _ _ [] Hr) as [y [Hy E1]]. rewrite Forall_forall in F. pose proof (F r Hr) as LR.
    destruct (In_nth _ _ (pix NoRole false) Hp) as [x [Hx E2]]. specialize (DA y x ltac:(lia) ltac:(lia)). unfold cell in DA. rewrite E1, E2 in DA. exact DA. }
  destruct BS as [bss BS]. set (stride := (side v + 7) / 8 * 8).
  assert (Hs : side v <= 8 * stride).
  { unfold stride. pose proof (Nat.div_mod (side v + 7) 8 ltac:(lia)). pose proof (Nat.mod_upper_bound (side v + 7) 8 ltac:(lia)). lia. }
  destruct (draw_rows_ok bytes (side v) stride Hs (mplan m g) bss (proj2 W') BS) as [bm [Eb [Lb Pb]]].
  eexists _, bm. split; [exact En|]. cbn [p_version p_level p_DataBytes p_Pixel]. do 3 (split; [reflexivity|]). split; [apply W'|]. split; [exact Eb|].
  set (c := {| Bitmap := bm; Size := side v; Stride := stride |}).
  assert (BC : forall y x, y < side v -> x < side v -> drawn bytes (cell (mplan m g) y x) = Some (black_of c y x)).
  { intros y x Hy Hx. pose proof (wf_row _ _ y W' Hy) as LR. destruct W' as [L F]. unfold black_of, Black. cbn [Size Stride Bitmap c].
    destruct (Z.leb_spec 0 (Z.of_nat x)); [|lia]. destruct (Z.ltb_spec (Z.of_nat x) (Z.of_nat (side v))); [|lia].
    destruct (Z.leb_spec 0 (Z.of_nat y)); [|lia]. destruct (Z.ltb_spec (Z.of_nat y) (Z.of_nat (side v))); [|lia]. cbn [andb]. rewrite !Nat2Z.id.
    rewrite Pb by lia.
    pose proof (f_equal (fun l => nth y l []) BS) as X. cbv beta in X. rewrite (map_nth (map (drawn bytes)) _ []) in X at 1.
    change (@nil (option bool)) with (map (@Some bool) []) in X. rewrite map_nth in X.
    apply (f_equal (fun l => nth x l None)) in X.
    rewrite (nth_indep (map (drawn bytes) _) _ (drawn bytes (pix NoRole false))) in X by (rewrite map_length; lia). rewrite (map_nth (drawn bytes)) in X. fold (cell (mplan m g) y x) in X.
    assert (LX : x < length (map (@Some bool) (nth y bss []))).
    { destruct (Nat.lt_ge_cases x (length (map (@Some bool) (nth y bss [])))) as [Q|Q]; [exact Q|]. rewrite (nth_overflow _ None) in X by exact Q.
      destruct (DA y x Hy Hx) as [b Hb]. congruence. }
    rewrite X. rewrite (nth_indep _ None (Some false)) by exact LX. apply (map_nth (@Some bool)). }
  assert (BF : forall y x, y < side v -> x < side v -> is_function v y x = true -> black_of c y x = black (cell g y x)).
  { intros y x Hy Hx Fn. pose proof (BC y x Hy Hx) as X. rewrite (mplan_cell (side v)) in X by assumption. destruct (Ff y x Hy Hx Fn) as [M _].
    rewrite M in X. cbn [andb] in X. rewrite (drawn_function _ _ M) in X. congruence. }
  cbv zeta. split; [|split].
  - intros y x Hy Hx Fn. pose proof (Ff y x Hy Hx Fn) as [_ Q]. rewrite (BF y x Hy Hx Fn). exact Q.
  - rewrite <- Rf. apply read_format_ext. intros i Hi c1 c2. destruct (Fc i Hi) as [F1 F2]. fold c1 c2 in F1, F2.
    assert (R1 : fst c1 < side v /\ snd c1 < side v). { pose proof (format_cells_lt v i ltac:(lia) Hi) as [X _]. exact X. }
    assert (R2 : fst c2 < side v /\ snd c2 < side v). { pose proof (format_cells_lt v i ltac:(lia) Hi) as [_ X]. exact X. }
    split; apply BF; tauto.
  - apply (nth_ext _ _ false false).
    + rewrite firstn_length, map_length. lia.
    + intros k Hk. rewrite firstn_length, map_length in Hk. assert (Hk2 : k < length (data_cells v)) by lia.
      rewrite <- (firstn_skipn (8 * vbytes (vt v)) (map _ (data_cells v))) at 1. 
      assert (NF : forall (l : list bool) a, k < a -> nth k (firstn a l) false = nth k l false).
      { clear. intros l. revert k. induction l as [|z l IH]; intros k a H; [rewrite firstn_nil; destruct k; reflexivity|]. destruct a; [lia|]. destruct k; [reflexivity|]. cbn. apply IH. lia. }
      rewrite firstn_skipn. rewrite NF by lia.
      rewrite (nth_indep _ false (xorb (black_of c (fst (0, 0)) (snd (0, 0))) (mask_bit m (fst (0, 0)) (snd (0, 0))))) by (rewrite map_length; exact Hk2).
      rewrite (map_nth (fun q => xorb (black_of c (fst q) (snd q)) (mask_bit m (fst q) (snd q)))). set (q := nth k (data_cells v) (0, 0)).
      pose proof (DK k Hk2) as X. cbv zeta in X. fold q in X.
      assert (Iq : In q (data_cells v)) by (apply nth_In; exact Hk2). destruct (data_cell_lt v q ltac:(lia) Iq) as [[Hy Hx] _].
      rewrite (BC _ _ Hy Hx) in X. injection X as X1. rewrite X1. unfold stream. rewrite app_nth1 by lia.
      destruct (mask_bit m (fst q) (snd q)), (nth k so false); reflexivity.
Qed.
