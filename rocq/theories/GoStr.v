(** * Go strings as byte lists, and the parts of package strings / unicode the code uses.
    Bytes and runes are Z (see Utf8.v). *)
From Coq Require Import String Ascii.
From Coq Require Import ZArith Arith List Bool Lia.
From Verif Require Import Utf8.
Import ListNotations.

Open Scope nat_scope.
Notation str := (list Z).
(** A string literal. *)
Definition lit (s : string) : str := map (fun a => Z.of_nat (nat_of_ascii a)) (list_ascii_of_string s).
Definition str_dec : forall a b : str, {a = b} + {a <> b} := list_eq_dec Z.eq_dec.
Definition eqs (a b : str) : bool := if str_dec a b then true else false.
Lemma eqs_iff a b : eqs a b = true <-> a = b.
Proof. unfold eqs. destruct (str_dec a b); split; congruence. Qed.
Lemma eqs_refl a : eqs a a = true.
Proof. apply eqs_iff. reflexivity. Qed.

(** unicode.IsSpace (Go 1.17: White_Space). *)
Definition isSpace (r : Z) : bool :=
  (((9 <=? r) && (r <=? 13)) || (r =? 32) || (r =? 0x85) || (r =? 0xA0) || (r =? 0x1680)
   || ((0x2000 <=? r) && (r <=? 0x200a)) || (r =? 0x2028) || (r =? 0x2029) || (r =? 0x202f) || (r =? 0x205f) || (r =? 0x3000))%Z.
(** strings.TrimLeftFunc(s, unicode.IsSpace). *)
Fixpoint trim_left (fuel : nat) (s : str) : str :=
  match fuel, s with
  | S f, _ :: _ => let '(r, w) := decode s in if isSpace r then trim_left f (skipn w s) else s
  | _, _ => s
  end.
(** utf8.RuneStart. *)
Definition rune_start (b : Z) : bool := negb ((128 <=? b) && (b <? 192))%Z.
(** utf8.DecodeLastRuneInString: the nearest start byte among the last four bytes (or the fourth from the end). *)
Definition decode_last (s : str) : Z * nat :=
  match rev s with
  | [] => (RuneError, 0)
  | b :: before =>
      if (b <? 128)%Z then (b, 1)
      else
        let k := match before with
          | c1 :: t1 => if rune_start c1 then 2 else
              match t1 with
              | c2 :: t2 => if rune_start c2 then 3 else match t2 with _ :: _ => 4 | [] => 3 end
              | [] => 2 end
          | [] => 1 end in
        let '(r, w) := decode (skipn (length s - k) s) in
        if w =? k then (r, w) else (RuneError, 1)
  end.
(** strings.TrimRightFunc(s, unicode.IsSpace). *)
Fixpoint trim_right (fuel : nat) (s : str) : str :=
  match fuel, s with
  | S f, _ :: _ => let '(r, w) := decode_last s in if isSpace r then trim_right f (firstn (length s - w) s) else s
  | _, _ => s
  end.
(** strings.TrimSpace; its ASCII fast path computes the same. *)
Definition TrimSpace (s : str) : str := let t := trim_left (length s) s in trim_right (length t) t.

(** Blank: TrimSpace leaves nothing. *)
Lemma trim_left_nil fuel : forall s i, (length s <= fuel)%nat -> (trim_left fuel s = [] <-> forallb isSpace (map snd (range_from fuel i s)) = true).
Proof.
  induction fuel as [|f IH]; intros s i L; [destruct s; [cbn; tauto|cbn in L; lia]|]. destruct s as [|b s]; [cbn; tauto|]. cbn [trim_left range_from].
  pose proof (decode_width (b :: s) ltac:(discriminate)) as W. destruct (decode (b :: s)) as [r w]. cbn [snd map forallb] in *.
  destruct (isSpace r); cbn [andb]; [|split; discriminate]. apply IH. rewrite skipn_length. cbn [length] in *. lia.
Qed.
Lemma decode_last_width s : s <> [] -> (1 <= snd (decode_last s) <= length s)%nat.
Proof.
  intros H. unfold decode_last. assert (L : length (rev s) = length s) by apply rev_length. destruct (rev s) as [|b t]; [destruct s; [contradiction|discriminate]|]. cbn [length] in L.
  destruct (b <? 128)%Z; [cbn; lia|].
  match goal with |- context [skipn (length s - ?k) s] => set (K := k) end.
  assert (1 <= K <= length s)%nat by (unfold K; destruct t as [|c1 t1]; [lia|]; destruct (rune_start c1); [cbn in *; lia|]; destruct t1 as [|c2 t2]; [cbn in *; lia|]; destruct (rune_start c2); [cbn in *; lia|]; destruct t2; cbn in *; lia).
  destruct (decode (skipn (length s - K) s)) as [r w]. destruct (Nat.eqb_spec w K); cbn [snd]; lia.
Qed.
(** trim_left leaves a string whose first rune is no space; so TrimSpace s = [] iff trim_left did it, unless trimming on the
    right eats the rest (possible only if the remaining runes decode backwards as spaces). *)
Definition blank (s : str) : bool := match TrimSpace s with [] => true | _ => false end.

(** ASCII case mapping; strings.ToLower and ToUpper on ASCII strings. *)
Definition lower1 (b : Z) : Z := if ((65 <=? b) && (b <=? 90))%Z then (b + 32)%Z else b.
Definition upper1 (b : Z) : Z := if ((97 <=? b) && (b <=? 122))%Z then (b - 32)%Z else b.
Definition ascii_lower (s : str) : str := map lower1 s.
Definition ascii_upper (s : str) : str := map upper1 s.

(** strings.HasPrefix, strings.Contains. *)
Fixpoint HasPrefix (s p : str) {struct p} : bool :=
  match p, s with
  | [], _ => true
  | a :: p', b :: s' => (a =? b)%Z && HasPrefix s' p'
  | _ :: _, [] => false
  end.
Lemma HasPrefix_iff s p : HasPrefix s p = true <-> exists r, s = p ++ r.
Proof.
  revert s. induction p as [|a p IH]; intros s; [split; [exists s; reflexivity|reflexivity]|].
  destruct s as [|b s]; cbn [HasPrefix]; [split; [discriminate|intros [r E]; discriminate]|].
  rewrite andb_true_iff, Z.eqb_eq, IH. split.
  - intros [-> [r ->]]. exists r. reflexivity.
  - intros [r E]. cbn in E. injection E as -> E. split; [reflexivity|]. exists r. exact E.
Qed.
