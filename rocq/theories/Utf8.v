(** * UTF-8 as the Go runtime decodes it ([for range] over a string, unicode/utf8.DecodeRuneInString)
    and encodes it (string(rune)).  Bytes and runes are Z. *)
From Coq Require Import ZArith List Bool Lia.
Import ListNotations.
Open Scope Z_scope.

Definition RuneError : Z := 65533.
Definition in_range (lo hi b : Z) : bool := (lo <=? b) && (b <=? hi).
Definition cont (b : Z) : bool := in_range 128 191 b.

(** Valid 2-, 3- and 4-byte sequences (unicode/utf8 tables [first] and [acceptRanges]). *)
Definition ok2 (b0 b1 : Z) : bool := in_range 194 223 b0 && cont b1.
Definition ok3 (b0 b1 b2 : Z) : bool :=
  ((in_range 224 224 b0 && in_range 160 191 b1)
   || ((in_range 225 236 b0 || in_range 238 239 b0) && cont b1)
   || (in_range 237 237 b0 && in_range 128 159 b1)) && cont b2.
Definition ok4 (b0 b1 b2 b3 : Z) : bool :=
  ((in_range 240 240 b0 && in_range 144 191 b1)
   || (in_range 241 243 b0 && cont b1)
   || (in_range 244 244 b0 && in_range 128 143 b1)) && cont b2 && cont b3.
Definition val2 (b0 b1 : Z) : Z := (b0 - 192) * 64 + (b1 - 128).
Definition val3 (b0 b1 b2 : Z) : Z := (b0 - 224) * 4096 + (b1 - 128) * 64 + (b2 - 128).
Definition val4 (b0 b1 b2 b3 : Z) : Z := (b0 - 240) * 262144 + (b1 - 128) * 4096 + (b2 - 128) * 64 + (b3 - 128).

(** DecodeRuneInString: rune and width. *)
Definition decode (s : list Z) : Z * nat :=
  match s with
  | [] => (RuneError, 0%nat)
  | b0 :: s1 =>
      if b0 <? 128 then (b0, 1%nat)
      else match s1 with
      | [] => (RuneError, 1%nat)
      | b1 :: s2 =>
          if ok2 b0 b1 then (val2 b0 b1, 2%nat)
          else match s2 with
          | [] => (RuneError, 1%nat)
          | b2 :: s3 =>
              if ok3 b0 b1 b2 then (val3 b0 b1 b2, 3%nat)
              else match s3 with
              | [] => (RuneError, 1%nat)
              | b3 :: _ => if ok4 b0 b1 b2 b3 then (val4 b0 b1 b2 b3, 4%nat) else (RuneError, 1%nat)
              end
          end
      end
  end.

(** [for i, r := range s]: the runes with their byte offsets. *)
Fixpoint range_from (fuel : nat) (i : nat) (s : list Z) : list (nat * Z) :=
  match fuel, s with
  | S f, _ :: _ => let '(r, w) := decode s in (i, r) :: range_from f (i + w) (skipn w s)
  | _, _ => []
  end.
Definition range_str (s : list Z) : list (nat * Z) := range_from (length s) 0 s.
Definition runes (s : list Z) : list Z := map snd (range_str s).

(** string(r) / utf8.EncodeRune. *)
Definition surrogate (r : Z) : bool := in_range 55296 57343 r.
Definition encode (r : Z) : list Z :=
  let r := if (r <? 0) || (r >? 1114111) || surrogate r then RuneError else r in
  if r <? 128 then [r]
  else if r <? 2048 then [192 + r / 64; 128 + r mod 64]
  else if r <? 65536 then [224 + r / 4096; 128 + (r / 64) mod 64; 128 + r mod 64]
  else [240 + r / 262144; 128 + (r / 4096) mod 64; 128 + (r / 64) mod 64; 128 + r mod 64].

(** A valid rune: what string(r) encodes as itself. *)
Definition valid_rune (r : Z) : Prop := 0 <= r <= 1114111 /\ surrogate r = false.
(** Valid UTF-8 text: a concatenation of encodings of valid runes. *)
Definition utf8 (rs : list Z) : list Z := concat (map encode rs).
Definition valid_utf8 (s : list Z) : Prop := exists rs, Forall valid_rune rs /\ s = utf8 rs.

(** ** Facts *)
Lemma in_range_true lo hi b : in_range lo hi b = true <-> lo <= b <= hi.
Proof. unfold in_range. rewrite andb_true_iff, !Z.leb_le. tauto. Qed.
Lemma decode_width s : s <> [] -> (1 <= snd (decode s) <= length s)%nat.
Proof.
  destruct s as [|b0 s1]; [contradiction|]. intros _. unfold decode.
  destruct (b0 <? 128); [cbn; lia|]. destruct s1 as [|b1 s2]; [cbn; lia|].
  destruct (ok2 b0 b1); [cbn; lia|]. destruct s2 as [|b2 s3]; [cbn; lia|].
  destruct (ok3 b0 b1 b2); [cbn; lia|]. destruct s3 as [|b3 s4]; [cbn; lia|].
  destruct (ok4 b0 b1 b2 b3); cbn; lia.
Qed.

Ltac ranges := unfold ok2, ok3, ok4, cont in *;
  rewrite ?andb_true_iff, ?orb_true_iff, ?andb_true_iff, ?in_range_true in *.

(** The bytes a multi-byte rune covers are all >= 128, and so is the rune. *)
Lemma decode_high b0 s1 : 128 <= b0 ->
  let '(r, w) := decode (b0 :: s1) in 128 <= r /\ Forall (fun b => 128 <= b) (firstn w (b0 :: s1)).
Proof.
  intros H. unfold decode. destruct (Z.ltb_spec b0 128); [lia|].
  assert (X : 128 <= RuneError /\ Forall (fun b => 128 <= b) (firstn 1 (b0 :: s1)))
    by (split; [unfold RuneError; lia|repeat constructor; lia]).
  destruct s1 as [|b1 s2]; [exact X|].
  destruct (ok2 b0 b1) eqn:E2.
  { unfold ok2, cont in E2. apply andb_true_iff in E2. rewrite !in_range_true in E2. unfold val2. split; [lia|]. repeat constructor; lia. }
  destruct s2 as [|b2 s3]; [exact X|].
  destruct (ok3 b0 b1 b2) eqn:E3.
  { unfold ok3, cont in E3. repeat rewrite ?andb_true_iff, ?orb_true_iff in E3. rewrite !in_range_true in E3. unfold val3.
    split; [lia|]. repeat constructor; lia. }
  destruct s3 as [|b3 s4]; [exact X|].
  destruct (ok4 b0 b1 b2 b3) eqn:E4; [|exact X].
  unfold ok4, cont in E4. repeat rewrite ?andb_true_iff, ?orb_true_iff in E4. rewrite !in_range_true in E4. unfold val4.
  split; [lia|]. repeat constructor; lia.
Qed.

Lemma filter_high (p : Z -> bool) l : (forall b, 128 <= b -> p b = false) -> Forall (fun b => 128 <= b) l -> filter p l = [].
Proof. intros Hp H. induction H; [reflexivity|]. cbn. rewrite Hp by assumption. exact IHForall. Qed.

(** Ranging over a string sees exactly its ASCII bytes, in order, and nothing else below 128. *)
Lemma range_from_ascii (p : Z -> bool) : (forall b, 128 <= b -> p b = false) ->
  forall fuel i s, (length s <= fuel)%nat -> filter p (map snd (range_from fuel i s)) = filter p s.
Proof.
  intros Hp. induction fuel as [|f IH]; intros i s L.
  - destruct s; [reflexivity|cbn in L; lia].
  - destruct s as [|b0 s1]; [reflexivity|]. cbn [range_from].
    pose proof (decode_width (b0 :: s1) ltac:(discriminate)) as W.
    destruct (Z.ltb_spec b0 128) as [A|A].
    + replace (decode (b0 :: s1)) with (b0, 1%nat)
        by (unfold decode; destruct (Z.ltb_spec b0 128); [reflexivity|lia]).
      cbn [map snd skipn filter]. rewrite IH by (cbn in L; lia). reflexivity.
    + pose proof (decode_high b0 s1 A) as H. destruct (decode (b0 :: s1)) as [r w]. destruct H as [H1 H2].
      cbn [snd] in W. cbn [map snd]. change (filter p (r :: ?l)) with (if p r then r :: filter p l else filter p l).
      rewrite Hp by exact H1. rewrite IH.
      * rewrite <- (firstn_skipn w (b0 :: s1)) at 2. rewrite filter_app, (filter_high p (firstn w _)) by assumption. reflexivity.
      * rewrite skipn_length. cbn [length] in *. lia.
Qed.
Lemma runes_ascii p s : (forall b, 128 <= b -> p b = false) -> filter p (runes s) = filter p s.
Proof. intros H. apply range_from_ascii; [exact H|lia]. Qed.
Lemma range_from_all_ascii fuel : forall i s, (length s <= fuel)%nat -> Forall (fun b => 0 <= b < 128) s ->
  map snd (range_from fuel i s) = s.
Proof.
  induction fuel as [|f IH]; intros i s L A; destruct s as [|b s]; try reflexivity; [cbn in L; lia|].
  inversion A; subst. cbn [range_from].
  replace (decode (b :: s)) with (b, 1%nat) by (unfold decode; destruct (Z.ltb_spec b 128); [reflexivity|lia]).
  cbn [map snd skipn]. f_equal. apply IH; [cbn in L; lia|assumption].
Qed.
Lemma runes_all_ascii s : Forall (fun b => 0 <= b < 128) s -> runes s = s.
Proof. apply range_from_all_ascii. lia. Qed.

(** Decoding undoes encoding. *)
Lemma decode_encode r rest : valid_rune r -> decode (encode r ++ rest) = (r, length (encode r)).
Proof.
  intros [B S]. unfold encode. rewrite S.
  destruct (Z.ltb_spec r 0); [lia|]. destruct (Z.gtb_spec r 1114111); [lia|]. cbn [orb].
  destruct (Z.ltb_spec r 128) as [H1|H1].
  { cbn [app decode length]. destruct (Z.ltb_spec r 128); [reflexivity|lia]. }
  assert (NS : ~ (55296 <= r <= 57343)) by (intros X; apply in_range_true in X; unfold surrogate in S; congruence).
  destruct (Z.ltb_spec r 2048) as [H2|H2].
  { pose proof (Z.div_mod r 64 ltac:(lia)). pose proof (Z.mod_pos_bound r 64 ltac:(lia)).
    cbn [app decode length]. destruct (Z.ltb_spec (192 + r / 64) 128); [lia|].
    replace (ok2 (192 + r / 64) (128 + r mod 64)) with true.
    - unfold val2. f_equal. lia.
    - symmetry. unfold ok2, cont. rewrite andb_true_iff, !in_range_true. lia. }
  destruct (Z.ltb_spec r 65536) as [H3|H3].
  { pose proof (Z.div_mod r 64 ltac:(lia)). pose proof (Z.mod_pos_bound r 64 ltac:(lia)).
    pose proof (Z.div_mod (r / 64) 64 ltac:(lia)) as X. pose proof (Z.mod_pos_bound (r / 64) 64 ltac:(lia)).
    rewrite Z.div_div in X by lia. change (64 * 64) with 4096 in X.
    cbn [app decode length]. destruct (Z.ltb_spec (224 + r / 4096) 128); [lia|].
    replace (ok2 (224 + r / 4096) (128 + r / 64 mod 64)) with false.
    2:{ symmetry. unfold ok2. apply andb_false_iff. left. unfold in_range. apply andb_false_iff. right. apply Z.leb_gt. lia. }
    replace (ok3 (224 + r / 4096) (128 + r / 64 mod 64) (128 + r mod 64)) with true.
    - unfold val3. f_equal. lia.
    - symmetry. unfold ok3, cont. repeat rewrite ?andb_true_iff, ?orb_true_iff. rewrite !in_range_true. lia. }
  pose proof (Z.div_mod r 64 ltac:(lia)). pose proof (Z.mod_pos_bound r 64 ltac:(lia)).
  pose proof (Z.div_mod (r / 64) 64 ltac:(lia)) as X. pose proof (Z.mod_pos_bound (r / 64) 64 ltac:(lia)).
  rewrite Z.div_div in X by lia. change (64 * 64) with 4096 in X.
  pose proof (Z.div_mod (r / 4096) 64 ltac:(lia)) as Y. pose proof (Z.mod_pos_bound (r / 4096) 64 ltac:(lia)).
  rewrite Z.div_div in Y by lia. change (4096 * 64) with 262144 in Y.
  cbn [app decode length]. destruct (Z.ltb_spec (240 + r / 262144) 128); [lia|].
  replace (ok2 (240 + r / 262144) (128 + r / 4096 mod 64)) with false.
  2:{ symmetry. unfold ok2. apply andb_false_iff. left. unfold in_range. apply andb_false_iff. right. apply Z.leb_gt. lia. }
  replace (ok3 (240 + r / 262144) (128 + r / 4096 mod 64) (128 + r / 64 mod 64)) with false.
  2:{ symmetry. destruct (ok3 _ _ _) eqn:E; [|reflexivity]. unfold ok3, cont in E.
      repeat rewrite ?andb_true_iff, ?orb_true_iff in E. rewrite !in_range_true in E. lia. }
  replace (ok4 (240 + r / 262144) (128 + r / 4096 mod 64) (128 + r / 64 mod 64) (128 + r mod 64)) with true.
  - unfold val4. f_equal. lia.
  - symmetry. unfold ok4, cont. repeat rewrite ?andb_true_iff, ?orb_true_iff. rewrite !in_range_true. lia.
Qed.
Lemma encode_nonempty r : encode r <> [].
Proof. unfold encode. destruct (_ <? 128); [discriminate|]. destruct (_ <? 2048); [discriminate|]. destruct (_ <? 65536); discriminate. Qed.
Lemma encode_bytes r : Forall (fun b => 0 <= b < 256) (encode r).
Proof.
  unfold encode. set (q := if (r <? 0) || (r >? 1114111) || surrogate r then RuneError else r).
  assert (Q : 0 <= q <= 1114111).
  { unfold q. destruct (Z.ltb_spec r 0); [cbn; unfold RuneError; lia|]. destruct (Z.gtb_spec r 1114111); [cbn; unfold RuneError; lia|].
    cbn. destruct (surrogate r); [unfold RuneError; lia|lia]. }
  pose proof (Z.mod_pos_bound q 64 ltac:(lia)). pose proof (Z.mod_pos_bound (q / 64) 64 ltac:(lia)).
  pose proof (Z.mod_pos_bound (q / 4096) 64 ltac:(lia)).
  destruct (Z.ltb_spec q 128); [repeat constructor; lia|].
  destruct (Z.ltb_spec q 2048).
  { assert (q / 64 < 32) by (apply Z.div_lt_upper_bound; lia). assert (0 <= q / 64) by (apply Z.div_pos; lia). repeat constructor; lia. }
  destruct (Z.ltb_spec q 65536).
  { assert (q / 4096 < 16) by (apply Z.div_lt_upper_bound; lia). assert (0 <= q / 4096) by (apply Z.div_pos; lia). repeat constructor; lia. }
  assert (q / 262144 < 5) by (apply Z.div_lt_upper_bound; lia). assert (0 <= q / 262144) by (apply Z.div_pos; lia). repeat constructor; lia.
Qed.
Lemma range_from_utf8 rs : Forall valid_rune rs -> forall fuel i, (length (utf8 rs) <= fuel)%nat ->
  map snd (range_from fuel i (utf8 rs)) = rs.
Proof.
  induction 1 as [|r rs Hr _ IH]; intros fuel i L.
  - destruct fuel; reflexivity.
  - unfold utf8 in *. cbn [map concat] in *. rewrite app_length in L.
    pose proof (encode_nonempty r) as NE. destruct (encode r) as [|e0 e] eqn:Ee; [contradiction|]. clear NE.
    destruct fuel as [|f]; [cbn in L; lia|]. cbn [range_from app].
    change (e0 :: e ++ concat (map encode rs)) with ((e0 :: e) ++ concat (map encode rs)). rewrite <- Ee.
    rewrite decode_encode by exact Hr. cbn [map snd]. f_equal.
    rewrite skipn_app, skipn_all, Nat.sub_diag, skipn_O. cbn [app]. apply IH. cbn [length] in L. lia.
Qed.
Lemma runes_utf8 rs : Forall valid_rune rs -> runes (utf8 rs) = rs.
Proof. intros H. apply range_from_utf8; [exact H|lia]. Qed.
