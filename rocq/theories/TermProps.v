(** * C24, C25, C51: the symbol on a terminal (qrterminal.go) and as an image (qr.go). *)
From Coq Require Import String.
From Coq Require Import NArith ZArith Arith List Bool Lia.
From Verif Require Import Utf8 Gf256Model Gf256Spec QrModel QrSpec QrBits QrCheck QrInter QrPlan QrStatic QrStatic2 QrDraw QrRead QrProps TermModel TermSpec.
Import ListNotations.
Open Scope nat_scope.

(** ** Pieces of a picture *)
Lemma flat_map_const {A} (s : list N) (l : list A) : flat_map (fun _ => s) l = concat (repeat s (length l)).
Proof. induction l; cbn; [reflexivity|]. rewrite IHl. reflexivity. Qed.
Lemma rep_nat s k : stringRepeat s (Z.of_nat k) = concat (repeat s k).
Proof. unfold stringRepeat. destruct (Z.leb_spec (Z.of_nat k) 0); [replace k with 0 by lia; reflexivity|]. rewrite Nat2Z.id. reflexivity. Qed.
Lemma rep_flat (s : list N) a k : flat_map (fun _ => s) (seq a k) = concat (repeat s k).
Proof. rewrite flat_map_const, seq_length. reflexivity. Qed.
Lemma flat_map_ext_in {A B} (f g : A -> list B) l : (forall a, In a l -> f a = g a) -> flat_map f l = flat_map g l.
Proof. induction l as [|a l IH]; intros H; cbn; [reflexivity|]. rewrite H by (left; reflexivity). f_equal. apply IH. intros b Hb. apply H. right. exact Hb. Qed.
Lemma flat_map_seq_shift {B} (f : nat -> list B) a k : forall n, flat_map f (seq (a + k) n) = flat_map (fun i => f (a + i)) (seq k n).
Proof. intros n. revert k. induction n as [|n IH]; intros k; cbn [seq flat_map]; [reflexivity|]. rewrite <- IH. rewrite Nat.add_succ_r. reflexivity. Qed.
Lemma flat_map_from {B} (f : nat -> list B) a n : flat_map f (seq a n) = flat_map (fun i => f (a + i)) (seq 0 n).
Proof. rewrite <- flat_map_seq_shift. rewrite Nat.add_0_r. reflexivity. Qed.
Lemma concat_app' {A} (a b : list (list A)) : concat (a ++ b) = concat a ++ concat b.
Proof. apply concat_app. Qed.
Lemma concat_flat_map {A B} (f : A -> list (list B)) l : concat (flat_map f l) = flat_map (fun a => concat (f a)) l.
Proof. induction l as [|a l IH]; cbn; [reflexivity|]. rewrite concat_app, IH. reflexivity. Qed.

(** One line of a row that may contain black modules. *)
Lemma row_split {A} (white : list A) (g : nat -> list A) n q : 1 <= q -> g n = white ->
  concat (repeat white q) ++ flat_map g (seq 0 (S n)) ++ concat (repeat white (q - 1))
  = flat_map (fun x => if (q <=? x) && (x <? q + n) then g (x - q) else white) (seq 0 (n + 2 * q)).
Proof.
  intros Hq Hn. replace (n + 2 * q) with (q + (S n + (q - 1))) by lia. rewrite seq_app, flat_map_app, seq_app, flat_map_app. f_equal; [|f_equal].
  - transitivity (flat_map (fun _ : nat => white) (seq 0 q)).
    + generalize 0. induction q as [|k IH]; [intros ?; reflexivity|]. clear IH Hq. generalize (S k). intros m. induction m as [|m IH]; intros s; cbn; [reflexivity|]. f_equal. apply IH.
    + apply flat_map_ext_in. intros x Hx. apply in_seq in Hx. destruct (Nat.leb_spec q x); [lia|]. reflexivity.
  - cbn [Nat.add]. rewrite (flat_map_from _ q). apply flat_map_ext_in. intros x Hx. apply in_seq in Hx.
    destruct (Nat.leb_spec q (q + x)); [|lia]. cbn [andb]. replace (q + x - q) with x by lia.
    destruct (Nat.ltb_spec (q + x) (q + n)); [reflexivity|]. replace x with n by lia. exact Hn.
  - transitivity (flat_map (fun _ : nat => white) (seq (0 + q + S n) (q - 1))).
    + generalize (0 + q + S n). generalize (q - 1). intros k. induction k as [|k IH]; intros s; cbn; [reflexivity|]. f_equal. apply IH.
    + apply flat_map_ext_in. intros x Hx. apply in_seq in Hx. destruct (Nat.leb_spec q x); [|lia]. cbn [andb].
      destruct (Nat.ltb_spec x (q + n)); [lia|reflexivity].
Qed.
Lemma white_line (white : list N) w : concat (repeat white w) = flat_map (fun _ => white) (seq 0 w).
Proof. rewrite rep_flat. reflexivity. Qed.

Definition sym (c : Code) (y x : nat) : bool := Black c (Z.of_nat x) (Z.of_nat y).
Lemma sym_out c y x : Size c <= y \/ Size c <= x -> sym c y x = false.
Proof. intros H. unfold sym. apply C49_white_outside. lia. Qed.

Lemma picture_app a b w g : picture (a + b) w g = picture a w g ++ picture b w (fun y => g (a + y)).
Proof. unfold picture. rewrite seq_app, flat_map_app. f_equal. cbn [Nat.add]. rewrite flat_map_from. reflexivity. Qed.
Lemma picture_ext h w f g : (forall y x, y < h -> x < w -> f y x = g y x) -> picture h w f = picture h w g.
Proof.
  intros H. unfold picture. apply flat_map_ext_in. intros y Hy. apply in_seq in Hy. f_equal. apply flat_map_ext_in. intros x Hx. apply in_seq in Hx. apply H; lia.
Qed.
Lemma picture_const h w (s : list N) : picture h w (fun _ _ => s) = concat (repeat (concat (repeat s w) ++ nl) h).
Proof. unfold picture. rewrite rep_flat, rep_flat. reflexivity. Qed.
Lemma full_picture c code q : QuietZone c = Z.of_nat q -> 1 <= q ->
  concat (writeFullBlocks c code)
  = picture (Size code + 2 * q) (Size code + 2 * q) (fun y x => if framed (Size code) q (sym code) y x then BlackChar c else WhiteChar c).
Proof.
  intros Eq Hq. unfold writeFullBlocks. rewrite Eq. set (n := Size code). set (white := WhiteChar c). set (black := BlackChar c).
  replace (Z.of_nat n + Z.of_nat q * 2)%Z with (Z.of_nat (n + 2 * q)) by lia. replace (Z.of_nat q - 1)%Z with (Z.of_nat (q - 1)) by lia.
  rewrite !rep_nat. rewrite !concat_app. cbn [concat]. rewrite !app_nil_r.
  transitivity (picture (q + (S n + (q - 1))) (n + 2 * q) (fun y x => if framed n q (sym code) y x then black else white)); [|f_equal; lia].
  rewrite !picture_app. f_equal; [|f_equal].
  - rewrite <- picture_const. apply picture_ext. intros y x Hy _. unfold framed. destruct (Nat.leb_spec q y); [lia|]. reflexivity.
  - rewrite concat_flat_map. unfold picture. apply flat_map_ext_in. intros i Hi. apply in_seq in Hi.
    rewrite !concat_app. cbn [concat]. rewrite !app_nil_r. rewrite <- flat_map_concat_map. rewrite !app_assoc. f_equal. rewrite <- app_assoc.
    rewrite (row_split white (fun j => if Black code (Z.of_nat j) (Z.of_nat i) then black else white)); [|exact Hq|fold (sym code i n); rewrite sym_out by (right; unfold n; lia); reflexivity].
    apply flat_map_ext_in. intros x _. unfold framed. destruct (Nat.leb_spec q (q + i)); [|lia]. replace (q + i - q) with i by lia. cbn [andb].
    destruct (Nat.ltb_spec (q + i) (q + n)); cbn [andb].
    + destruct (q <=? x), (x <? q + n); reflexivity.
    + destruct ((q <=? x) && (x <? q + n)); [|reflexivity]. fold (sym code i (x - q)). rewrite sym_out by (left; fold n; lia). reflexivity.
  - rewrite <- picture_const. apply picture_ext. intros y x Hy _.
    unfold framed. destruct (Nat.ltb_spec (q + (S n + y)) (q + n)); [lia|]. rewrite andb_false_r. reflexivity.
Qed.

(** Half blocks: terminal row k (two per character) shows row k - o of the framed symbol; o is 1 for an odd quiet zone.
    The single row outside it has the terminal's (dark) background. *)
Definition shade (n q : nat) (black : nat -> nat -> bool) (k x : nat) : bool :=
  let o := q mod 2 in if (o <=? k) && (k <? o + (n + 2 * q)) then framed n q black (k - o) x else true.
Definition glyph2 (c : Config) (top bottom : bool) : list N :=
  match top, bottom with true, true => BlackChar c | true, false => BlackWhiteChar c | false, true => WhiteBlackChar c | false, false => WhiteChar c end.
Lemma evens m : filter Nat.even (seq 0 (2 * m)) = map (fun k => 2 * k) (seq 0 m).
Proof.
  induction m as [|m IH]; [reflexivity|]. replace (2 * S m) with (2 * m + 2) by lia. rewrite seq_app, filter_app, IH, (seq_S m), map_app. f_equal.
  cbn [Nat.add seq map filter]. assert (E : Nat.even (2 * m) = true) by (rewrite Nat.even_mul; reflexivity). rewrite E. rewrite Nat.even_succ, <- Nat.negb_even, E. reflexivity.
Qed.
Lemma flat_map_map {A B C} (f : B -> list C) (g : A -> B) l : flat_map f (map g l) = flat_map (fun a => f (g a)) l.
Proof. induction l; cbn; [reflexivity|]. f_equal. assumption. Qed.
Lemma half_picture c code q m : QuietZone c = Z.of_nat q -> 1 <= q -> Size code = 2 * m + 1 ->
  concat (writeHalfBlocks c code)
  = picture (m + q + 1) (Size code + 2 * q) (fun r x => glyph2 c (shade (Size code) q (sym code) (2 * r) x) (shade (Size code) q (sym code) (2 * r + 1) x)).
Proof.
  intros Eq Hq En. unfold writeHalfBlocks. rewrite Eq. set (n := Size code) in *. set (bb := BlackChar c). set (bw := BlackWhiteChar c). set (wb := WhiteBlackChar c). set (ww := WhiteChar c).
  replace (Z.of_nat n + Z.of_nat q * 2)%Z with (Z.of_nat (n + 2 * q)) by lia. replace (Z.of_nat q - 1)%Z with (Z.of_nat (q - 1)) by lia.
  change 2%Z with (Z.of_nat 2). rewrite Z.rem_mod_nonneg, Z.quot_div_nonneg by lia. rewrite <- Nat2Z.inj_div, <- Nat2Z.inj_mod. replace (Z.of_nat (q mod 2) =? 0)%Z with (q mod 2 =? 0) by (destruct (Nat.eqb_spec (q mod 2) 0), (Z.eqb_spec (Z.of_nat (q mod 2)) 0); try reflexivity; lia).
  pose proof (Nat.div_mod q 2 ltac:(lia)) as DM. pose proof (Nat.mod_upper_bound q 2 ltac:(lia)) as MB.
  replace (S n) with (2 * (m + 1)) by lia. rewrite evens, flat_map_map.
  set (G := fun r x => glyph2 c (shade n q (sym code) (2 * r) x) (shade n q (sym code) (2 * r + 1) x)).
  unfold shade in G. set (o := q mod 2) in *. set (h := q / 2) in *.
  assert (TOP : forall r x, r < h -> G (o + r) x = ww).
  { intros r x Hr. unfold G, framed. destruct (Nat.leb_spec o (2 * (o + r))), (Nat.leb_spec o (2 * (o + r) + 1)); try lia.
    destruct (Nat.ltb_spec (2 * (o + r)) (o + (n + 2 * q))), (Nat.ltb_spec (2 * (o + r) + 1) (o + (n + 2 * q))); try lia. cbn [andb].
    destruct (Nat.leb_spec q (2 * (o + r) - o)), (Nat.leb_spec q (2 * (o + r) + 1 - o)); try lia. reflexivity. }
  assert (MID : forall k, k < m + 1 ->
    concat ([stringRepeat ww (Z.of_nat q)] ++ map (fun j =>
            let next_black := if S (2 * k) <? n then Black code (Z.of_nat j) (Z.of_nat (S (2 * k))) else false in
            let curr_black := Black code (Z.of_nat j) (Z.of_nat (2 * k)) in
            if curr_black && next_black then bb else if curr_black && negb next_black then bw else if negb curr_black && negb next_black then ww else wb) (seq 0 (2 * (m + 1)))
       ++ [stringRepeat ww (Z.of_nat (q - 1)) ++ nl])
    = flat_map (G (o + h + k)) (seq 0 (n + 2 * q)) ++ nl).
  { intros k Hk. rewrite !rep_nat, !concat_app. cbn [concat]. rewrite !app_nil_r. rewrite <- flat_map_concat_map. rewrite !app_assoc. f_equal. rewrite <- app_assoc.
    replace (2 * (m + 1)) with (S n) by lia. set (g := fun j => _). rewrite (row_split ww g n q Hq).
    2:{ unfold g. fold (sym code (2 * k) n) (sym code (S (2 * k)) n). rewrite !sym_out by (right; fold n; lia). destruct (S (2 * k) <? n); reflexivity. }
    apply flat_map_ext_in. intros x _. unfold G, framed.
    replace (2 * (o + h + k)) with (o + (q + 2 * k)) by lia. replace (o + (q + 2 * k) + 1) with (o + (q + S (2 * k))) by lia.
    destruct (Nat.leb_spec o (o + (q + 2 * k))), (Nat.leb_spec o (o + (q + S (2 * k)))); try lia.
    destruct (Nat.ltb_spec (o + (q + 2 * k)) (o + (n + 2 * q))), (Nat.ltb_spec (o + (q + S (2 * k))) (o + (n + 2 * q))); try lia. cbn [andb].
    replace (o + (q + 2 * k) - o) with (q + 2 * k) by lia. replace (o + (q + S (2 * k)) - o) with (q + S (2 * k)) by lia.
    destruct (Nat.leb_spec q (q + 2 * k)), (Nat.leb_spec q (q + S (2 * k))); try lia. cbn [andb].
    replace (q + 2 * k - q) with (2 * k) by lia. replace (q + S (2 * k) - q) with (S (2 * k)) by lia.
    destruct (Nat.ltb_spec (q + 2 * k) (q + n)); [|lia]. cbn [andb].
    destruct (Nat.leb_spec q x); cbn [andb]; [|rewrite !andb_false_r; reflexivity].
    destruct (Nat.ltb_spec x (q + n)); cbn [andb]; [|rewrite !andb_false_r; reflexivity]. rewrite !andb_true_r.
    unfold g. fold (sym code (2 * k) (x - q)) (sym code (S (2 * k)) (x - q)).
    destruct (Nat.ltb_spec (S (2 * k)) n), (Nat.ltb_spec (q + S (2 * k)) (q + n)); try lia; cbn [andb];
      destruct (sym code (2 * k) (x - q)); try destruct (sym code (S (2 * k)) (x - q)); reflexivity. }
  assert (BOT : forall r x, r < h + o - 1 -> G (o + h + (m + 1) + r) x = ww).
  { intros r x Hr. unfold G, framed. set (K := o + h + (m + 1) + r). assert (HK : K = o + h + (m + 1) + r) by reflexivity. clearbody K.
    destruct (Nat.leb_spec o (2 * K)), (Nat.leb_spec o (2 * K + 1)); try lia.
    destruct (Nat.ltb_spec (2 * K) (o + (n + 2 * q))), (Nat.ltb_spec (2 * K + 1) (o + (n + 2 * q))); try lia. cbn [andb].
    destruct (Nat.ltb_spec (2 * K - o) (q + n)), (Nat.ltb_spec (2 * K + 1 - o) (q + n)); try lia. rewrite !andb_false_r. reflexivity. }
  transitivity (picture (o + (h + ((m + 1) + ((h + o - 1) + (1 - o))))) (n + 2 * q) G); [|f_equal; lia].
  rewrite (picture_app o), (picture_app h), (picture_app (m + 1)), (picture_app (h + o - 1)). rewrite !concat_app, !rep_nat.
  assert (ETOP : picture h (n + 2 * q) (fun y => G (o + y)) = concat (repeat (concat (repeat ww (n + 2 * q)) ++ nl) h)).
  { rewrite <- picture_const. apply picture_ext. intros y x Hy _. apply TOP. exact Hy. }
  assert (EMID : concat (flat_map (fun k => [stringRepeat ww (Z.of_nat q)] ++ map (fun j =>
            let next_black := if S (2 * k) <? n then Black code (Z.of_nat j) (Z.of_nat (S (2 * k))) else false in
            let curr_black := Black code (Z.of_nat j) (Z.of_nat (2 * k)) in
            if curr_black && next_black then bb else if curr_black && negb next_black then bw else if negb curr_black && negb next_black then ww else wb) (seq 0 (2 * (m + 1)))
       ++ [stringRepeat ww (Z.of_nat (q - 1)) ++ nl]) (seq 0 (m + 1))) = picture (m + 1) (n + 2 * q) (fun y => G (o + (h + y)))).
  { rewrite concat_flat_map. unfold picture. apply flat_map_ext_in. intros k Hk. apply in_seq in Hk. rewrite MID by lia. rewrite <- Nat.add_assoc. reflexivity. }
  assert (EBOT : picture (h + o - 1) (n + 2 * q) (fun y => G (o + (h + (m + 1 + y)))) = concat (repeat (concat (repeat ww (n + 2 * q)) ++ nl) (h + o - 1))).
  { rewrite <- picture_const. apply picture_ext. intros y x Hy _. rewrite !Nat.add_assoc. rewrite <- (Nat.add_assoc _ m 1). apply BOT. exact Hy. }
  rewrite !rep_nat in EMID.
  match goal with |- context [concat (flat_map ?F (seq 0 (m + 1)))] => replace (concat (flat_map F (seq 0 (m + 1)))) with (picture (m + 1) (n + 2 * q) (fun y => G (o + (h + y)))) by (symmetry; exact EMID) end.
  clear EMID. rewrite ETOP. cbv beta. rewrite EBOT. clear ETOP EBOT.
  destruct (Nat.eqb_spec o 0) as [E0|E0].
  - clearbody o h. subst o. cbn [concat]. rewrite !app_nil_r. change (picture (1 - 0)) with (picture 1). unfold picture at 2 4. cbn [seq flat_map app]. rewrite app_nil_r. f_equal. f_equal.
    replace (Z.of_nat h - 1)%Z with (Z.of_nat (h - 1)) by lia. rewrite rep_nat. replace (h + 0 - 1) with (h - 1) by lia. f_equal.
    rewrite white_line. unfold nl. f_equal. apply flat_map_ext_in. intros x _. unfold G.
    destruct (Nat.ltb_spec (2 * (0 + (h + (m + 1 + (h - 1 + 0))))) (0 + (n + 2 * q))), (Nat.ltb_spec (2 * (0 + (h + (m + 1 + (h - 1 + 0)))) + 1) (0 + (n + 2 * q))); try lia.
    cbn [Nat.leb andb]. unfold framed. destruct (Nat.ltb_spec (2 * (0 + (h + (m + 1 + (h - 1 + 0)))) - 0) (q + n)); [lia|]. rewrite !andb_false_r. reflexivity.
  - assert (E1 : o = 1) by lia. clearbody o h. subst o. cbn [concat Nat.sub]. rewrite  !app_nil_r. rewrite <- app_assoc.
    replace (h + 1 - 1) with h by lia. f_equal.
    unfold picture. cbn [seq flat_map]. rewrite app_nil_r, white_line. unfold nl. f_equal. apply flat_map_ext_in. intros x Hx. unfold G. cbn [Nat.mul Nat.add Nat.leb andb Nat.sub].
    destruct (Nat.ltb_spec 1 (S (n + (q + (q + 0))))); [|lia]. unfold framed. destruct (Nat.leb_spec q 0); [lia|]. reflexivity.
Qed.

(** ** The properties *)
Definition quiet (c : Config) : nat := Z.to_nat (Z.max 1 (QuietZone c)).
Lemma Encode_side t l c : Forall byteb t -> l <= 3 -> Encode t l = Ok c -> exists v, 1 <= v <= 40 /\ Size c = side v.
Proof. intros B Hl E. destruct (C20_smallest_version t l c B Hl E) as [v [H1 [H2 _]]]. exists v. auto. Qed.
(** C24: the output is the symbol in a white frame, one glyph (or half a glyph) per module. *)
Theorem C24_full_blocks t l c code : Encode t l = Ok code -> HalfBlocks c = false ->
  exists out, GenerateWithConfig t l c = Some out
  /\ concat out = picture (Size code + 2 * quiet c) (Size code + 2 * quiet c)
       (fun y x => if framed (Size code) (quiet c) (fun y x => Black code (Z.of_nat x) (Z.of_nat y)) y x then BlackChar c else WhiteChar c).
Proof.
  intros E Hh. unfold GenerateWithConfig. rewrite E. eexists. split; [reflexivity|]. unfold quiet.
  destruct (Z.ltb_spec (QuietZone c) 1) as [H|H]; cbn [HalfBlocks]; rewrite Hh.
  - rewrite (full_picture _ code 1); [|reflexivity|lia]. replace (Z.max 1 (QuietZone c)) with 1%Z by lia. reflexivity.
  - rewrite (full_picture _ code (Z.to_nat (QuietZone c))); [|rewrite Z2Nat.id; [reflexivity|lia]|lia]. replace (Z.max 1 (QuietZone c)) with (QuietZone c) by lia. reflexivity.
Qed.
Theorem C24_half_blocks t l c code : Forall byteb t -> l <= 3 -> Encode t l = Ok code -> HalfBlocks c = true ->
  exists out, GenerateWithConfig t l c = Some out
  /\ concat out = picture ((Size code + 2 * quiet c + 1) / 2) (Size code + 2 * quiet c)
       (fun r x => let dark := shade (Size code) (quiet c) (fun y x => Black code (Z.of_nat x) (Z.of_nat y)) in
          glyph2 c (dark (2 * r) x) (dark (2 * r + 1) x)).
Proof.
  intros B Hl E Hh. destruct (Encode_side t l code B Hl E) as [v [Hv Sz]]. assert (Sz' : Size code = 2 * (8 + 2 * v) + 1) by (rewrite Sz; unfold side; lia).
  unfold GenerateWithConfig. rewrite E. eexists. split; [reflexivity|]. unfold quiet.
  assert (HD : forall q, (Size code + 2 * q + 1) / 2 = 8 + 2 * v + q + 1) by (intros q; symmetry; apply (Nat.div_unique _ 2 _ 0); lia). rewrite HD.
  destruct (Z.ltb_spec (QuietZone c) 1) as [H|H]; cbn [HalfBlocks]; rewrite Hh.
  - rewrite (half_picture _ code 1 (8 + 2 * v)); [|reflexivity|lia|exact Sz']. replace (Z.max 1 (QuietZone c)) with 1%Z by lia. reflexivity.
  - rewrite (half_picture _ code (Z.to_nat (QuietZone c)) (8 + 2 * v)); [|rewrite Z2Nat.id; [reflexivity|lia]|lia|exact Sz']. replace (Z.max 1 (QuietZone c)) with (QuietZone c) by lia. reflexivity.
Qed.

(** Reading the screen back. *)
Lemma lines_app a : forall acc s, ~ In 10%N a -> lines acc (a ++ 10%N :: s) = (rev acc ++ a) :: lines [] s.
Proof.
  induction a as [|b a IH]; intros acc s H; cbn [app lines].
  - rewrite N.eqb_refl, app_nil_r. reflexivity.
  - destruct (N.eqb_spec b 10) as [->|]; [exfalso; apply H; left; reflexivity|]. rewrite IH by (intros X; apply H; right; exact X). cbn [rev]. rewrite <- app_assoc. reflexivity.
Qed.
Section Screen.
  Context {A : Type} (table : list (list N * A)) (glyph : A -> list N).
  Hypothesis code_ok : forall a r, one_glyph table (glyph a ++ r) = Some (a, r).
  Hypothesis glyph_ok : forall a, glyph a <> [] /\ ~ In 10%N (glyph a).
  Lemma glyphs_read xs : forall fuel, length (flat_map glyph xs) <= fuel -> glyphs table fuel (flat_map glyph xs) = Some xs.
  Proof.
    induction xs as [|a xs IH]; intros fuel L; cbn [flat_map] in *; [destruct fuel; reflexivity|].
    destruct (glyph_ok a) as [Ne _]. destruct (glyph a) as [|b g] eqn:Eg; [congruence|]. cbn [app length] in L. destruct fuel as [|f]; [lia|]. cbn [app glyphs].
    pose proof (code_ok a (flat_map glyph xs)) as C. rewrite Eg in C. cbn [app] in C. rewrite C. rewrite IH; [reflexivity|]. rewrite app_length in L. lia.
  Qed.
  Lemma screen_picture h w f : screen table (picture h w (fun y x => glyph (f y x))) = Some (map (fun y => map (f y) (seq 0 w)) (seq 0 h)).
  Proof.
    unfold screen, picture. generalize 0 at 2 4 as s. induction h as [|h IH]; intros s; [reflexivity|]. cbn [seq flat_map map].
    rewrite <- app_assoc. cbn [app].
    assert (R : forall l, flat_map (fun x => glyph (f s x)) l = flat_map glyph (map (f s) l)) by (induction l as [|z l IHl]; cbn; [reflexivity|rewrite IHl; reflexivity]). rewrite R.
    rewrite lines_app; [|intros X; apply in_flat_map in X; destruct X as [a [_ X]]; destruct (glyph_ok a); contradiction].
    cbn [rev app map all_some]. rewrite glyphs_read by lia. rewrite IH. reflexivity.
  Qed.
End Screen.
Lemma nth_grid (f : nat -> nat -> bool) h w y x : y < h -> x < w -> nth x (nth y (map (fun y => map (f y) (seq 0 w)) (seq 0 h)) []) false = f y x.
Proof.
  intros Hy Hx. rewrite (nth_indep _ [] (map (f 0) (seq 0 w))) by (rewrite map_length, seq_length; exact Hy). rewrite (map_nth (fun y => map (f y) (seq 0 w))), seq_nth by exact Hy.
  rewrite (nth_indep _ false (f (0 + y) 0)) by (rewrite map_length, seq_length; exact Hx). rewrite map_nth, seq_nth by exact Hx. reflexivity.
Qed.
Lemma read_text_ext n f g : (forall y x, f y x = g y x) -> read_text n f = read_text n g.
Proof.
  intros H. assert (E : read_symbol n f = read_symbol n g); [|unfold read_text; rewrite E; reflexivity].
  unfold read_symbol. destruct (negb _); [reflexivity|].
  assert (Ef : read_format n f = read_format n g).
  { unfold read_format. cbv zeta. do 2 (erewrite (map_ext (fun i => f _ _)); [|intros i; apply H]). reflexivity. }
  rewrite Ef. destruct (read_format n g) as [[l m]|]; [|reflexivity]. cbv zeta.
  erewrite (map_ext (fun c => xorb (f (fst c) (snd c)) _)); [|intros c; rewrite H; reflexivity]. reflexivity.
Qed.
Definition grid (f : nat -> nat -> bool) (h w : nat) : list (list bool) := map (fun y => map (f y) (seq 0 w)) (seq 0 h).
Lemma crop_grid f n q h black : n + 2 * q <= h -> 1 <= h ->
  (forall y x, y < n + 2 * q -> x < n + 2 * q -> f y x = framed n q black y x) ->
  (forall y x, n <= y \/ n <= x -> black y x = false) ->
  crop_side q (grid f h (n + 2 * q)) = n /\ forall y x, crop q (grid f h (n + 2 * q)) y x = black y x.
Proof.
  intros Hh H1 Hf Hb. assert (Sd : crop_side q (grid f h (n + 2 * q)) = n).
  { unfold crop_side, grid. destruct h as [|h]; [lia|]. cbn [seq map hd]. rewrite map_length, seq_length. lia. }
  split; [exact Sd|]. intros y x. unfold crop. rewrite Sd. destruct (Nat.ltb_spec y n), (Nat.ltb_spec x n); cbn [andb]; try (symmetry; apply Hb; lia).
  unfold grid. rewrite nth_grid by lia. rewrite Hf by lia. unfold framed.
  destruct (Nat.leb_spec q (y + q)), (Nat.ltb_spec (y + q) (q + n)), (Nat.leb_spec q (x + q)), (Nat.ltb_spec (x + q) (q + n)); try lia.
  cbn [andb]. f_equal; lia.
Qed.
Lemma two_rows_grid (f g : nat -> nat -> bool) w : forall h s, flat_map two_rows (map (fun r => map (fun x => (f r x, g r x)) (seq 0 w)) (seq s h))
  = flat_map (fun r => [map (f r) (seq 0 w); map (g r) (seq 0 w)]) (seq s h).
Proof.
  induction h as [|h IH]; intros s; [reflexivity|]. cbn [seq map flat_map]. rewrite IH. unfold two_rows. rewrite !map_map. reflexivity.
Qed.
Lemma pairs_grid (f : nat -> nat -> bool) w h : flat_map (fun r => [map (f (2 * r)) (seq 0 w); map (f (2 * r + 1)) (seq 0 w)]) (seq 0 h) = grid f (2 * h) w.
Proof.
  unfold grid. induction h as [|h IH]; [reflexivity|]. rewrite seq_S, flat_map_app, IH. replace (2 * S h) with (2 * h + 2) by lia. rewrite seq_app, map_app. f_equal.
  cbn [Nat.add seq map flat_map app]. replace (2 * h + 1) with (S (2 * h)) by lia. reflexivity.
Qed.

(** C24, end to end: what a person sees on the screen, cropped, is read back as the level and the text. *)
Theorem C24_full_screen_reads_back t l : Forall byteb t -> l <= 3 -> (exists v, 1 <= v <= 40 /\ fits v l t) ->
  exists out rows, Generate t l = Some out /\ screen full_glyphs (concat out) = Some rows
    /\ read_text (crop_side 4 rows) (crop 4 rows) = Some (l, t).
Proof.
  intros B Hl [v [Hv F]]. destruct (C20_error_iff_no_version_fits t l B Hl) as [NE NP]. destruct (Encode t l) as [code| |] eqn:E; [|exfalso; exact (proj1 NE eq_refl v Hv F)|congruence].
  unfold Generate. set (cfg := {| HalfBlocks := false; BlackChar := _; BlackWhiteChar := _; WhiteChar := _; WhiteBlackChar := _; QuietZone := _ |}).
  destruct (C24_full_blocks t l cfg code E eq_refl) as [out [G P]]. change (quiet cfg) with 4 in P. change (BlackChar cfg) with BLACK in P. change (WhiteChar cfg) with WHITE in P.
  set (n := Size code) in *. set (blk := fun y x => Black code (Z.of_nat x) (Z.of_nat y)) in *.
  exists out, (grid (framed n 4 blk) (n + 2 * 4) (n + 2 * 4)). split; [exact G|]. rewrite P.
  assert (S : screen full_glyphs (picture (n + 2 * 4) (n + 2 * 4) (fun y x => (fun b : bool => if b then BLACK else WHITE) (framed n 4 blk y x))) = Some (grid (framed n 4 blk) (n + 2 * 4) (n + 2 * 4))).
  { apply (screen_picture full_glyphs (fun b : bool => if b then BLACK else WHITE)) with (f := framed n 4 blk).
    - intros [|] r; reflexivity.
    - intros [|]; (split; [discriminate|]); cbn; intuition discriminate. }
  split; [exact S|].
  destruct (crop_grid (framed n 4 blk) n 4 (n + 2 * 4) blk) as [C1 C2]; [lia|lia|reflexivity|intros y x H; apply (sym_out code y x H)|].
  rewrite C1. rewrite (read_text_ext n _ blk C2). exact (C23_reader_recovers_text t l code B Hl E).
Qed.
Theorem C24_half_screen_reads_back t l : Forall byteb t -> l <= 3 -> (exists v, 1 <= v <= 40 /\ fits v l t) ->
  exists out rows, GenerateHalfBlock t l = Some out /\ screen half_glyphs (concat out) = Some rows
    /\ let px := flat_map two_rows rows in read_text (crop_side 4 px) (crop 4 px) = Some (l, t).
Proof.
  intros B Hl [v [Hv F]]. destruct (C20_error_iff_no_version_fits t l B Hl) as [NE NP]. destruct (Encode t l) as [code| |] eqn:E; [|exfalso; exact (proj1 NE eq_refl v Hv F)|congruence].
  unfold GenerateHalfBlock. set (cfg := {| HalfBlocks := true; BlackChar := _; BlackWhiteChar := _; WhiteChar := _; WhiteBlackChar := _; QuietZone := _ |}).
  destruct (C24_half_blocks t l cfg code B Hl E eq_refl) as [out [G P]]. change (quiet cfg) with 4 in P. destruct (Encode_side t l code B Hl E) as [w [Hw Sz]].
  set (n := Size code) in *. set (blk := fun y x => Black code (Z.of_nat x) (Z.of_nat y)) in *. set (h := (n + 2 * 4 + 1) / 2) in *.
  assert (Sn : n = 17 + 4 * w) by exact Sz.
  assert (Hh : 2 * h = n + 9) by (assert (h = 13 + 2 * w) by (unfold h; symmetry; apply (Nat.div_unique _ 2 _ 0); lia); lia).
  exists out, (map (fun r => map (fun x => (shade n 4 blk (2 * r) x, shade n 4 blk (2 * r + 1) x)) (seq 0 (n + 2 * 4))) (seq 0 h)). split; [exact G|]. rewrite P. split.
  - apply (screen_picture half_glyphs (fun p => glyph2 cfg (fst p) (snd p))) with (f := fun r x => (shade n 4 blk (2 * r) x, shade n 4 blk (2 * r + 1) x)).
    + intros [[|] [|]] r; reflexivity.
    + intros [[|] [|]]; (split; [discriminate|]); cbn; intuition discriminate.
  - cbv zeta. rewrite (two_rows_grid (fun r => shade n 4 blk (2 * r)) (fun r => shade n 4 blk (2 * r + 1))), pairs_grid.
    destruct (crop_grid (shade n 4 blk) n 4 (2 * h) blk) as [C1 C2]; [lia|lia| |intros y x H; apply (sym_out code y x H)|].
    + intros y x Hy Hx. unfold shade. change (4 mod 2) with 0. cbn [Nat.leb andb Nat.add]. destruct (Nat.ltb_spec y (n + 2 * 4)); [|lia]. rewrite Nat.sub_0_r. reflexivity.
    + rewrite C1. rewrite (read_text_ext n _ blk C2). exact (C23_reader_recovers_text t l code B Hl E).
Qed.
Example C24_nonvacuous : fits 3 0 (bytes_of "otpauth://totp/x?secret=JBSWY3DPEHPK3PXP").
Proof.
  exists (4 + 8 + 8 * 40). split; [|vm_compute; lia]. change 40 with (length (bytes_of "otpauth://totp/x?secret=JBSWY3DPEHPK3PXP")). change 8 with (count_bits 3 2) at 1.
  apply need_bytes; intros X; apply (proj1 (Forall_forall _ _)) with (x := 111%N) in X; try (left; reflexivity); [lia|]. vm_compute in X. intuition discriminate.
Qed.

(** C25: exactly the texts that fit no version crash the generator, before anything is written. *)
Theorem C25_overlong_text_panics_refuted t l c : Forall byteb t -> l <= 3 ->
  (GenerateWithConfig t l c = None <-> forall v, 1 <= v <= 40 -> ~ fits v l t).
Proof.
  intros B Hl. destruct (C20_error_iff_no_version_fits t l B Hl) as [NE NP]. rewrite <- NE. unfold GenerateWithConfig.
  destruct (Encode t l); split; try congruence; intros X; exfalso; try discriminate; apply NP; reflexivity.
Qed.
(** In particular every text of 7090 bytes or more, at any level and configuration. *)
Theorem C25_longer_texts_panic_refuted t l c : Forall byteb t -> l <= 3 -> (7090 <= N.of_nat (length t))%N -> GenerateWithConfig t l c = None.
Proof.
  intros B Hl L. assert (L' : 70 * 100 + 90 <= length t) by lia. clear L. apply (C25_overlong_text_panics_refuted t l c B Hl). intros v Hv [k [N K]].
  assert (M : forallb (fun v => forallb (fun l => 8 * DataBytes v l <? 4 + count_bits v 0 + (236 * 100 + 34)) (seq 0 4)) (seq 1 40) = true) by (vm_compute; reflexivity).
  rewrite forallb_forall in M. specialize (M v ltac:(apply in_seq; lia)). rewrite forallb_forall in M. specialize (M l ltac:(apply in_seq; lia)).
  apply Nat.ltb_lt in M. rewrite data_codewords_ok in K by lia.
  assert (C : count_bits v 0 <= 14) by (unfold count_bits; destruct (v <=? 9), (v <=? 26); cbn; lia).
  destruct N as [_|_ _|_ _].
  - rewrite <- Nat.add_assoc, <- num_len in K. assert ((236 * 100 + 34) <= (10 * length t + 2) / 3) by (apply Nat.div_le_lower_bound; lia). lia.
  - rewrite <- Nat.add_assoc, <- alnum_len in K. assert (389 * 100 + 95 <= (11 * length t + 1) / 2) by (apply Nat.div_le_lower_bound; lia). lia.
  - lia.
Qed.
Example C25_nonvacuous : Generate (repeat 97%N 2954) 0 = None /\ match GenerateHalfBlock (bytes_of "a") 1 with Some out => length out = 267 | None => False end.
Proof. split; vm_compute; reflexivity. Qed.

(** C51: an Image is documented to display the code; Bounds announces Scale pixels per module and a frame of 4 modules, but At
    takes pixel coordinates for module coordinates: the picture is the unscaled symbol in the top left corner. *)
Theorem C51_image_not_scaled_refuted t l c x y : Forall byteb t -> l <= 3 -> Encode t l = Ok c ->
  (* what is shown *)
  image_At c x y = Black c x y
  (* the frame the bounds leave room for is not white: the corner of the finder pattern is at (0,0) *)
  /\ image_At c 0 0 = true
  (* everything beyond the first Size pixels is white *)
  /\ (forall x y, (Z.of_nat (Size c) <= x)%Z -> image_At c x y = false)
  (* so it is not the framed symbol at scale 8, which Bounds describes *)
  /\ image_side c 8 = 8 * (4 + Size c + 4)
  /\ ~ (forall i j, i < 8 * (4 + Size c + 4) -> j < 8 * (4 + Size c + 4) ->
         image_At c (Z.of_nat j) (Z.of_nat i) = framed (Size c) 4 (fun y x => Black c (Z.of_nat x) (Z.of_nat y)) (i / 8) (j / 8)).
Proof.
  intros B Hl E. destruct (Encode_side t l c B Hl E) as [v [Hv Sz]].
  assert (C0 : image_At c 0 0 = true).
  { change 0%Z with (Z.of_nat 0). apply (C49_function_patterns t l c 0 0 true B Hl E); try (rewrite Sz; unfold side; lia).
    unfold function_colour. reflexivity. }
  split; [reflexivity|]. split; [exact C0|]. split; [intros a b H; apply C49_white_outside; lia|].
  split; [unfold image_side; lia|]. intros H. specialize (H 0 0). specialize (H ltac:(rewrite Sz; unfold side; lia) ltac:(rewrite Sz; unfold side; lia)). change (Z.of_nat 0) with 0%Z in H. rewrite C0 in H. discriminate.
Qed.
Example C51_nonvacuous : match Encode (bytes_of "x") 0 with Ok c => image_side c 8 = 232 /\ Size c = 21 | _ => False end.
Proof. vm_compute. split; reflexivity. Qed.

Print Assumptions C24_full_blocks.
Print Assumptions C24_half_blocks.
Print Assumptions C24_full_screen_reads_back.
Print Assumptions C24_half_screen_reads_back.
Print Assumptions C25_overlong_text_panics_refuted.
Print Assumptions C25_longer_texts_panic_refuted.
Print Assumptions C51_image_not_scaled_refuted.
