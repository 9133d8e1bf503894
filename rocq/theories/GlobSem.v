(** * What matchers do on ASCII strings (proofs for C45 and C46). *)
From Coq Require Import String.
From Coq Require Import ZArith Arith List Bool Lia Sorting.
From Verif Require Import Utf8 GoStr GlobLex GlobMatch GlobCompile GlobSpec.
Import ListNotations.
Open Scope nat_scope.

(** ** ASCII strings *)
Lemma ascii_app a b : ascii (a ++ b) <-> ascii a /\ ascii b.
Proof. unfold ascii. apply Forall_app. Qed.
Lemma ascii_firstn n s : ascii s -> ascii (firstn n s).
Proof. intros A. rewrite <- (firstn_skipn n s) in A. apply ascii_app in A. apply A. Qed.
Lemma ascii_skipn n s : ascii s -> ascii (skipn n s).
Proof. intros A. rewrite <- (firstn_skipn n s) in A. apply ascii_app in A. apply A. Qed.
#[global] Hint Resolve ascii_firstn ascii_skipn : asc.
Lemma decode_ascii c s : (0 <= c < 128)%Z -> decode (c :: s) = (c, 1).
Proof. intros H. unfold decode. destruct (Z.ltb_spec c 128); [reflexivity|lia]. Qed.
Lemma encode_ascii c : (0 <= c < 128)%Z -> encode c = [c].
Proof.
  intros H. unfold encode. destruct (Z.ltb_spec c 0); [lia|].
  assert (G : (c >? 1114111)%Z = false) by (rewrite Z.gtb_ltb; apply Z.ltb_ge; lia). rewrite G.
  assert (R : surrogate c = false) by (unfold surrogate, in_range; rewrite (proj2 (Z.leb_gt 55296 c)) by lia; reflexivity). rewrite R. cbn [orb].
  destruct (Z.ltb_spec c 128); [reflexivity|lia].
Qed.
Lemma valid_ascii c : (0 <= c < 128)%Z -> valid_rune c.
Proof. intros H. split; [lia|]. unfold surrogate, in_range. rewrite (proj2 (Z.leb_gt 55296 c)) by lia. reflexivity. Qed.
Lemma range_from_ascii' fuel : forall i s, length s <= fuel -> ascii s -> range_from fuel i s = combine (seq i (length s)) s.
Proof.
  induction fuel as [|f IH]; intros i s L A; destruct s as [|b s]; try reflexivity; [cbn in L; lia|]. inversion A; subst. cbn [range_from].
  rewrite decode_ascii by assumption. cbn [length seq combine skipn]. rewrite Nat.add_1_r. f_equal. apply IH; [cbn in L; lia|assumption].
Qed.
Lemma range_ascii s : ascii s -> range_str s = combine (seq 0 (length s)) s.
Proof. apply range_from_ascii'. lia. Qed.
Lemma range_len s : ascii s -> length (range_str s) = length s.
Proof. intros A. rewrite range_ascii by exact A. rewrite combine_length, seq_length. lia. Qed.
Lemma map_fst_combine {A B} (a : list A) (b : list B) : length a = length b -> map fst (combine a b) = a.
Proof. revert b. induction a as [|x a IH]; intros [|y b] H; cbn in *; try discriminate; [reflexivity|]. f_equal. apply IH. lia. Qed.
Lemma range_fst s : ascii s -> map fst (range_str s) = seq 0 (length s).
Proof. intros A. rewrite range_ascii by exact A. apply map_fst_combine. rewrite seq_length. reflexivity. Qed.
Lemma all_segments_ascii s : ascii s -> all_segments s = seq 0 (S (length s)).
Proof. intros A. unfold all_segments. rewrite range_fst by exact A. rewrite seq_S. reflexivity. Qed.
Lemma range_ends s : ascii s -> forall d, map (fun ir => d + fst ir + RuneLen (snd ir)) (range_str s) = seq (S d) (length s).
Proof.
  intros A d. rewrite range_ascii by exact A. replace (S d) with (d + 1 + 0) by lia. generalize 0 at 1 3. induction s as [|c s IH]; intros i; [reflexivity|].
  inversion A; subst. cbn [length seq combine map fst snd]. unfold RuneLen. rewrite encode_ascii by assumption. cbn [length]. f_equal; [lia|].
  rewrite IH by assumption. f_equal. lia.
Qed.

(** ** Parts of strings *)
Definition sub (s : str) (i k : nat) : str := firstn k (skipn i s).
Lemma sub_len s i k : i + k <= length s -> length (sub s i k) = k.
Proof. intros H. unfold sub. rewrite firstn_length, skipn_length. lia. Qed.
Lemma sub_short s i k : length (sub s i k) = k -> k = 0 \/ i + k <= length s.
Proof. unfold sub. rewrite firstn_length, skipn_length. lia. Qed.
Lemma ascii_sub s i k : ascii s -> ascii (sub s i k).
Proof. intros A. apply ascii_firstn, ascii_skipn, A. Qed.
Lemma skipn_add {A} (a : nat) : forall b (l : list A), skipn b (skipn a l) = skipn (a + b) l.
Proof. induction a as [|a IH]; intros b l; [reflexivity|]. destruct l; [rewrite !skipn_nil; reflexivity|apply IH]. Qed.
Lemma sub_skipn s a i k : sub (skipn a s) i k = sub s (a + i) k.
Proof. unfold sub. rewrite skipn_add. reflexivity. Qed.
Lemma skipn_firstn_comm' {A} (l : list A) : forall m n, skipn m (firstn n l) = firstn (n - m) (skipn m l).
Proof. intros m n. apply skipn_firstn_comm. Qed.
Lemma sub_firstn s n i k : i + k <= n -> sub (firstn n s) i k = sub s i k.
Proof. intros H. unfold sub. rewrite skipn_firstn_comm'. rewrite firstn_firstn. f_equal. lia. Qed.
Lemma split3 s i k : s = firstn i s ++ sub s i k ++ skipn (i + k) s.
Proof. unfold sub. rewrite <- skipn_add. rewrite firstn_skipn, firstn_skipn. reflexivity. Qed.
Lemma sub_app3 (a b c : str) : sub (a ++ b ++ c) (length a) (length b) = b.
Proof. unfold sub. rewrite skipn_app, skipn_all, Nat.sub_diag. cbn [skipn app]. rewrite firstn_app, firstn_all, Nat.sub_diag, firstn_O, app_nil_r. reflexivity. Qed.

(** ** Languages of sequences *)
Definition lang := str -> Prop.
Fixpoint catL (Ls : list lang) (s : str) : Prop :=
  match Ls with [] => s = [] | L :: t => exists u v, s = u ++ v /\ L u /\ catL t v end.
Lemma catL_app a b : forall s, catL (a ++ b) s <-> exists u v, s = u ++ v /\ catL a u /\ catL b v.
Proof.
  induction a as [|n a IH]; intros s; cbn [app catL].
  - split; [intros H; exists [], s; auto|intros [u [v [-> [-> H]]]]; exact H].
  - split.
    + intros [u [v [-> [D H]]]]. apply IH in H. destruct H as [x [y [-> [A B]]]]. exists (u ++ x), y. rewrite app_assoc. split; [reflexivity|]. split; [|exact B]. exists u, x. auto.
    + intros [u [v [-> [[x [y [-> [D A]]]] B]]]]. exists x, (y ++ v). rewrite app_assoc. split; [reflexivity|]. split; [exact D|]. apply IH. exists y, v. auto.
Qed.
Lemma catL_one L s : catL [L] s <-> L s.
Proof. cbn [catL]. split; [intros [u [v [-> [D ->]]]]; rewrite app_nil_r; exact D|intros D; exists s, []; rewrite app_nil_r; auto]. Qed.

(** ** Bytes that are no ASCII characters *)
Definition high (b : Z) : Prop := (128 <= b)%Z.
Definition raw (s : str) : Prop := Forall (fun c => 0 <= c)%Z s.
Lemma decode_cases c s : raw (c :: s) -> ((0 <= c < 128)%Z /\ decode (c :: s) = (c, 1)) \/
  exists h t r, c :: s = h ++ t /\ h <> [] /\ Forall high h /\ (128 <= r)%Z /\ decode (c :: s) = (r, length h).
Proof.
  intros A. inversion A as [|? ? B _]; subst. destruct (Z.lt_ge_cases c 128) as [L|G]; [left; split; [lia|apply decode_ascii; lia]|right].
  pose proof (decode_width (c :: s) ltac:(discriminate)) as W. pose proof (decode_high c s G) as H. destruct (decode (c :: s)) as [r w] eqn:D. destruct H as [R F]. cbn [snd] in W.
  exists (firstn w (c :: s)), (skipn w (c :: s)), r. split; [symmetry; apply firstn_skipn|]. split; [destruct w; [lia|discriminate]|]. split; [exact F|]. split; [exact R|]. rewrite firstn_length. f_equal. lia.
Qed.
(** Going through the characters of a string: ASCII bytes are characters, others come in blocks of high bytes. *)
Lemma runes_ind (P : nat -> str -> list (nat * Z) -> Prop) :
  (forall i, P i [] []) -> (forall i c s l, (0 <= c < 128)%Z -> raw s -> P (S i) s l -> P i (c :: s) ((i, c) :: l)) ->
  (forall i h r s l, h <> [] -> Forall high h -> (128 <= r)%Z -> raw s -> P (i + length h) s l -> P i (h ++ s) ((i, r) :: l)) ->
  forall fuel s i, raw s -> length s <= fuel -> P i s (range_from fuel i s).
Proof.
  intros P0 P1 P2. induction fuel as [|f IH]; intros s i A L; destruct s as [|c s]; try apply P0; [cbn in L; lia|]. cbn [range_from].
  destruct (decode_cases c s A) as [[B D]|[h [t [r [E [Nh [Hh [Hr D]]]]]]]]; rewrite D.
  - cbn [skipn]. inversion A as [|? ? _ A']; subst. rewrite Nat.add_1_r. apply P1; [exact B|exact A'|]. apply IH; [exact A'|cbn in L; lia].
  - rewrite E. rewrite skipn_app, skipn_all, Nat.sub_diag. cbn [skipn app]. assert (At : raw t) by (rewrite E in A; apply Forall_app in A; apply A). apply P2; try assumption.
    apply IH; [exact At|]. rewrite E, app_length in L. destruct h; [contradiction|]. cbn in L. lia.
Qed.
(** Looking for an ASCII character. *)
Lemma find_raw p s : (forall c, p c = true -> (0 <= c < 128)%Z) -> raw s -> match find (fun ir => p (snd ir)) (range_str s) with
  | Some (i, r) => i < length s /\ nth_error s i = Some r /\ p r = true /\ forall j' c, j' < i -> nth_error s j' = Some c -> p c = false
  | None => Forall (fun c => p c = false) s end.
Proof.
  intros Hp A. assert (HF : forall h, Forall high h -> Forall (fun c => p c = false) h).
  { intros h H. eapply Forall_impl; [|exact H]. intros c Hc. destruct (p c) eqn:E; [|reflexivity]. apply Hp in E. unfold high in Hc. lia. }
  unfold range_str. set (Q := fun (a : nat) (s : str) l => match find (fun ir : nat * Z => p (snd ir)) l with
  | Some (i, r) => exists j, i = a + j /\ j < length s /\ nth_error s j = Some r /\ p r = true /\ forall j' c, j' < j -> nth_error s j' = Some c -> p c = false
  | None => Forall (fun c => p c = false) s end).
  assert (G : Q 0 s (range_from (length s) 0 s)).
  { apply runes_ind; [| | |exact A|lia]; unfold Q; clear - Hp HF.
    - intros i. cbn [find]. constructor.
    - intros i c s l B _ IH. cbn [find snd]. destruct (p c) eqn:E.
      + exists 0. split; [lia|]. split; [cbn; lia|]. split; [reflexivity|]. split; [exact E|]. intros; lia.
      + destruct (find _ l) as [[i' r]|].
        * destruct IH as [j [-> [L [N [Pr F]]]]]. exists (S j). split; [lia|]. split; [cbn; lia|]. split; [exact N|]. split; [exact Pr|]. intros [|j'] d H M; [cbn in M; congruence|]. apply (F j' d); [lia|exact M].
        * constructor; assumption.
    - intros i h r s l Nh Hh Hr _ IH. cbn [find snd]. destruct (p r) eqn:E; [apply Hp in E; lia|]. specialize (HF h Hh). destruct (find _ l) as [[i' r']|].
      + destruct IH as [j [-> [L [N [Pr F]]]]]. exists (length h + j). split; [lia|]. split; [rewrite app_length; lia|]. split; [rewrite nth_error_app2 by lia; replace (length h + j - length h) with j by lia; exact N|]. split; [exact Pr|].
        intros j' d H M. destruct (Nat.lt_ge_cases j' (length h)) as [L'|L'].
        * rewrite nth_error_app1 in M by exact L'. apply nth_error_In in M. rewrite Forall_forall in HF. apply HF, M.
        * rewrite nth_error_app2 in M by exact L'. apply (F (j' - length h) d); [lia|exact M].
      + apply Forall_app. auto. }
  unfold Q in G. destruct (find _ _) as [[i r]|]; [|exact G]. destruct G as [j [-> G]]. exact G.
Qed.
(** Where characters begin: at the beginning, and before and after every ASCII character. *)
Definition edge (s : str) (j : nat) : Prop := j = 0 \/ j = length s \/ exists c, (c < 128)%Z /\ (nth_error s j = Some c \/ nth_error s (j - 1) = Some c).
Lemma high_nth h j c : Forall high h -> nth_error h j = Some c -> ~ (c < 128)%Z.
Proof. intros H N. apply nth_error_In in N. rewrite Forall_forall in H. apply H in N. unfold high in N. lia. Qed.
Lemma edge_starts s j : raw s -> j < length s -> edge s j -> In j (map fst (range_str s)).
Proof.
  intros A L E. unfold range_str. set (Q := fun (a : nat) (s : str) (l : list (nat * Z)) => forall j, j < length s -> edge s j -> In (a + j) (map fst l)).
  assert (G : Q 0 s (range_from (length s) 0 s)); [|exact (G j L E)]. clear L E j. apply runes_ind; [| | |exact A|lia]; unfold Q.
  - intros i j L. cbn in L. lia.
  - intros i c t l B At IH j L E. cbn [map fst In]. destruct j as [|j]; [left; lia|right]. replace (i + S j) with (S i + j) by lia. apply IH; [cbn in L; lia|]. destruct j as [|j]; [left; reflexivity|right].
    destruct E as [E|[E|[d [D [E|E]]]]]; [discriminate|cbn in E; lia| |]; right; exists d; (split; [exact D|]); [left; exact E|right]. cbn [nth_error] in E. replace (S (S j) - 1) with (S j) in E by lia. replace (S j - 1) with j by lia. exact E.
  - intros i h r t l Nh Hh _ At IH j L E. cbn [map fst In]. destruct j as [|j]; [left; lia|right]. rewrite app_length in L. destruct (Nat.lt_ge_cases (S j) (length h)) as [H|H].
    + exfalso. destruct E as [E|[E|[d [D [E|E]]]]]; [discriminate|rewrite app_length in E; lia| |]; rewrite nth_error_app1 in E by lia; exact (high_nth h _ d Hh E D).
    + replace (i + S j) with (i + length h + (S j - length h)) by lia. apply IH; [lia|]. destruct (Nat.eq_dec (S j) (length h)) as [Q0|Q0]; [left; lia|right; right]. destruct E as [E|[E|[d [D [E|E]]]]]; [discriminate|rewrite app_length in E; lia| |]; exists d; (split; [exact D|]); [left|right].
      * rewrite nth_error_app2 in E by lia. exact E.
      * rewrite nth_error_app2 in E by lia. replace (S j - length h - 1) with (S j - 1 - length h) by lia. exact E.
Qed.
Lemma edge_segments s j : raw s -> j <= length s -> edge s j -> In j (all_segments s).
Proof. intros A L E. unfold all_segments. apply in_or_app. destruct (Nat.eq_dec j (length s)) as [->|N]; [right; left; reflexivity|left]. apply edge_starts; [exact A|lia|exact E]. Qed.
Lemma starts_inside s : raw s -> Forall (fun j => j < length s) (map fst (range_str s)) /\ StronglySorted lt (map fst (range_str s)).
Proof.
  intros A. unfold range_str. set (Q := fun (a : nat) (s : str) (l : list (nat * Z)) => Forall (fun j => a <= j < a + length s) (map fst l) /\ StronglySorted lt (map fst l)).
  assert (G : Q 0 s (range_from (length s) 0 s)); [|exact (conj (Forall_impl _ (fun j (H : 0 <= j < 0 + length s) => proj2 H) (proj1 G)) (proj2 G))]. apply runes_ind; [| | |exact A|lia]; unfold Q.
  - intros i. split; constructor.
  - intros i c t l _ _ [F O]. cbn [map fst length]. split; [constructor; [lia|]; eapply Forall_impl; [|exact F]; cbn; lia|]. constructor; [exact O|]. eapply Forall_impl; [|exact F]; cbn; lia.
  - intros i h r t l Nh _ _ _ [F O]. cbn [map fst]. rewrite app_length. assert (1 <= length h) by (destruct h; [contradiction|cbn; lia]). split; [constructor; [lia|]; eapply Forall_impl; [|exact F]; cbn; lia|]. constructor; [exact O|]. eapply Forall_impl; [|exact F]; cbn; lia.
Qed.
Lemma segments_inside s j : raw s -> In j (all_segments s) -> j <= length s.
Proof. intros A I. unfold all_segments in I. apply in_app_or in I. destruct I as [I|[<-|[]]]; [|lia]. destruct (starts_inside s A) as [F _]. rewrite Forall_forall in F. apply F in I. lia. Qed.
(** How many characters: at least as many as there are ASCII bytes at the beginning, and one more if something follows. *)
Lemma runes_count s n : raw s -> n <= length s -> ascii (firstn n s) -> n <= length (range_str s) /\ (n < length s -> n < length (range_str s)).
Proof.
  intros A. unfold range_str. set (Q := fun (a : nat) (s : str) (l : list (nat * Z)) => forall n, n <= length s -> ascii (firstn n s) -> n <= length l /\ (n < length s -> n < length l)).
  assert (G : Q 0 s (range_from (length s) 0 s)); [|exact (G n)]. clear n. apply runes_ind; [| | |exact A|lia]; unfold Q.
  - intros _ n L _. cbn in *. lia.
  - intros i c t l _ _ IH [|n] L F; cbn [length] in *; [lia|]. cbn [firstn] in F. inversion F; subst. destruct (IH n ltac:(lia) ltac:(assumption)) as [X Y]. split; [lia|]. intros H. specialize (Y ltac:(lia)). lia.
  - intros i h r t l Nh Hh _ _ IH [|n] L F; cbn [length]; [lia|]. exfalso. destruct h as [|b h]; [contradiction|]. cbn [app firstn] in F. inversion F as [|? ? B _]; subst. inversion Hh as [|? ? B' _]; subst. unfold high in B'. lia.
Qed.
(** What Row looks at for a member of k characters. *)
Lemma row_scan_raw s k : raw s -> 1 <= k -> let '(nx, a) := row_scan (range_str s) (Z.of_nat k) 0 0 in
  (a < k /\ ~ (k <= length s /\ ascii (firstn k s))) \/ (a = k /\ k <= length s /\ ascii (firstn k s) /\ nx = k - 1)
  \/ (a = k /\ nx < length s /\ exists q b, q < k /\ q <= nx /\ nth_error s q = Some b /\ high b).
Proof.
  intros A K. unfold range_str. set (Q := fun (i : nat) (s : str) (l : list (nat * Z)) => forall a next, a < k -> let '(nx, a') := row_scan l (Z.of_nat k) a next in
    (a' < k /\ ~ (k - a <= length s /\ ascii (firstn (k - a) s))) \/ (a' = k /\ k - a <= length s /\ ascii (firstn (k - a) s) /\ nx = i + (k - a) - 1)
    \/ (a' = k /\ nx < i + length s /\ exists q b, q < k - a /\ i + q <= nx /\ nth_error s q = Some b /\ high b)).
  assert (G : Q 0 s (range_from (length s) 0 s)). 2: { specialize (G 0 0 K). rewrite Nat.sub_0_r in G. exact G. }
  apply runes_ind; [| | |exact A|lia]; unfold Q.
  - intros i a next H. cbn. left. split; [exact H|lia].
  - intros i c t l B _ IH a next H. cbn [row_scan]. destruct (Z.eqb_spec (Z.of_nat (S a)) (Z.of_nat k)) as [E|E].
    + right. left. assert (k - a = 1) by lia. rewrite H0. split; [lia|]. split; [cbn; lia|]. split; [cbn [firstn]; constructor; [exact B|constructor]|lia].
    + specialize (IH (S a) i ltac:(lia)). destruct (row_scan l (Z.of_nat k) (S a) i) as [nx a']. replace (k - a) with (S (k - S a)) by lia. cbn [length firstn]. destruct IH as [[H1 H2]|[[H1 [H2 [H3 H4]]]|[H1 [H2 [q [b [H3 [H4 [H5 H6]]]]]]]]].
      * left. split; [exact H1|]. intros [L F]. inversion F; subst. apply H2. split; [lia|assumption].
      * right. left. split; [exact H1|]. split; [lia|]. split; [constructor; assumption|lia].
      * right. right. split; [exact H1|]. split; [lia|]. exists (S q), b. split; [lia|]. split; [lia|]. split; assumption.
  - intros i h r t l Nh Hh _ _ IH a next H. destruct h as [|b h]; [contradiction|]. inversion Hh as [|? ? Hb _]; subst. cbn [row_scan]. destruct (Z.eqb_spec (Z.of_nat (S a)) (Z.of_nat k)) as [E|E].
    + right. right. split; [lia|]. split; [cbn; lia|]. exists 0, b. split; [lia|]. split; [lia|]. split; [reflexivity|exact Hb].
    + specialize (IH (S a) i ltac:(lia)). destruct (row_scan l (Z.of_nat k) (S a) i) as [nx a']. cbn [length app] in *. rewrite app_length. destruct IH as [[H1 H2]|[[H1 [H2 [H3 H4]]]|[H1 [H2 [q [d [H3 [H4 [H5 H6]]]]]]]]].
      * left. split; [exact H1|]. intros [L F]. destruct (k - a) as [|m] eqn:Em; [lia|]. cbn [firstn] in F. inversion F as [|? ? B _]; subst. unfold high in Hb. lia.
      * right. right. split; [exact H1|]. split; [lia|]. exists 0, b. split; [lia|]. split; [lia|]. split; [reflexivity|exact Hb].
      * right. right. split; [exact H1|]. split; [lia|]. exists 0, b. split; [lia|]. split; [lia|]. split; [reflexivity|exact Hb].
Qed.
Lemma nth_firstn_ascii s k q b : ascii (firstn k s) -> q < k -> nth_error s q = Some b -> high b -> False.
Proof.
  intros F L N H. assert (E : nth_error (firstn k s) q = Some b). { rewrite <- N. clear - L. revert q k L. induction s as [|c s IH]; intros q k L; [rewrite firstn_nil; reflexivity|]. destruct k; [lia|]. destruct q; [reflexivity|]. cbn. apply IH. lia. }
  apply nth_error_In in E. unfold ascii in F. rewrite Forall_forall in F. apply F in E. unfold high in H. lia.
Qed.

(** ** Behaviour classes
    The proofs are done for two domains at once: ASCII strings (mode false), and strings of any bytes (mode true), where only matchers
    that look at no character outside ASCII qualify. *)
Class Mode : Set := mode : bool.
Definition is_bytes {md : Mode} : Prop := mode = true.
Section Classes.
Context {md : Mode}.
Definition dom (s : str) : Prop := Forall (fun c => 0 <= c < if mode then 256 else 128)%Z s.
Lemma dom_app a b : dom (a ++ b) <-> dom a /\ dom b.
Proof. apply Forall_app. Qed.
Lemma dom_firstn n s : dom s -> dom (firstn n s).
Proof. intros A. rewrite <- (firstn_skipn n s) in A. apply dom_app in A. apply A. Qed.
Lemma dom_skipn n s : dom s -> dom (skipn n s).
Proof. intros A. rewrite <- (firstn_skipn n s) in A. apply dom_app in A. apply A. Qed.
Lemma dom_sub s i k : dom s -> dom (sub s i k).
Proof. intros A. apply dom_firstn, dom_skipn, A. Qed.
Lemma dom_raw s : dom s -> raw s.
Proof. apply Forall_impl. intros c. lia. Qed.
Lemma ascii_dom s : ascii s -> dom s.
Proof. apply Forall_impl. intros c. destruct mode; lia. Qed.
Lemma is_bytes_dec : is_bytes \/ ~ is_bytes.
Proof. unfold is_bytes. destruct mode; [left; reflexivity|right; discriminate]. Qed.
Lemma dom_ascii s : ~ is_bytes -> dom s -> ascii s.
Proof. unfold is_bytes, dom, ascii. destruct mode; [contradiction|auto]. Qed.
(** Match tells whether s is in L. *)
Definition right (x : Sem) (L : lang) (s : str) : Prop := exists b, sMatch x s = Some b /\ (b = true <-> L s).
(** Over bytes: only ASCII strings. *)
Definition sharp (L : lang) : Prop := is_bytes -> forall s, L s -> ascii s.
(** Over bytes: a high byte may be replaced by any number of high bytes. *)
Definition loose (L : lang) : Prop := is_bytes -> forall x b y bs, high b -> L (x ++ b :: y) -> Forall high bs -> L (x ++ bs ++ y).
(** Strings of k characters; Match is right on non-empty strings, Index finds the first occurrence. *)
Definition fixed (k : nat) (L : lang) (x : Sem) : Prop :=
  sLen x = Z.of_nat k /\ 1 <= k /\ (forall s, L s -> length s = k) /\ (forall s, dom s -> s <> [] -> right x L s) /\
  (forall s, dom s -> match sIndex x s with
     | Some (Some (i, segs)) => segs = [k] /\ i + k <= length s /\ L (sub s i k) /\ forall j, j < i -> ~ L (sub s j k)
     | Some None => forall j, ~ L (sub s j k)
     | None => False end) /\ sharp L.
(** Unknown length, Match always right. *)
Definition free (L : lang) (x : Sem) : Prop := sLen x = (-1)%Z /\ (forall s, dom s -> right x L s) /\ loose L.
(** Index gives the lengths of beginnings of s in L, and over bytes only has to give those at edges; a position other than 0 or none if there is no such beginning. *)
Definition pref (L : lang) (x : Sem) : Prop :=
  (forall s, dom s -> match sIndex x s with
     | Some (Some (i, segs)) => i <= length s /\ (i = 0 -> forall j, (In j segs -> j <= length s /\ L (firstn j s)) /\ (j <= length s -> L (firstn j s) -> (is_bytes -> edge s j) -> In j segs))
         /\ (0 < i -> forall j, j <= length s -> ~ L (firstn j s))
     | Some None => forall j, j <= length s -> ~ L (firstn j s)
     | None => False end) /\ loose L.
Definition elem (L : lang) (x : Sem) : Prop := (exists k, fixed k L x) \/ free L x.
Lemma sharp_ext L L' : (forall s, L s <-> L' s) -> sharp L -> sharp L'.
Proof. intros E H U s Hs. apply (H U), E, Hs. Qed.
Lemma loose_ext L L' : (forall s, L s <-> L' s) -> loose L -> loose L'.
Proof. intros E H U x b y bs Hb Hs F. apply E. apply (H U x b y bs Hb); [apply E, Hs|exact F]. Qed.
Lemma sharp_loose L : sharp L -> loose L.
Proof. intros H U x b y bs Hb Hs _. exfalso. apply (H U) in Hs. apply ascii_app in Hs. destruct Hs as [_ Hs]. inversion Hs; subst. unfold high in Hb. lia. Qed.
Lemma right_ext x L L' s : (L s <-> L' s) -> right x L s -> right x L' s.
Proof. intros E [b [M H]]. exists b. split; [exact M|]. rewrite H. exact E. Qed.
Lemma fixed_ext k L L' x : (forall s, L s <-> L' s) -> fixed k L x -> fixed k L' x.
Proof.
  intros E [A [B [C [D [F Sh]]]]]. split; [exact A|]. split; [exact B|]. split; [intros s H; apply C, E, H|]. split; [intros s As N; apply (right_ext x L), D; [apply E|exact As|exact N]|].
  split; [|exact (sharp_ext L L' E Sh)]. intros s As. specialize (F s As). destruct (sIndex x s) as [[[i segs]|]|]; [|intros j H; apply E in H; exact (F j H)|exact F].
  destruct F as [F1 [F2 [F3 F4]]]. split; [exact F1|]. split; [exact F2|]. split; [apply E, F3|]. intros j Hj H. apply E in H. exact (F4 j Hj H).
Qed.
Lemma free_ext L L' x : (forall s, L s <-> L' s) -> free L x -> free L' x.
Proof. intros E [A [B C]]. split; [exact A|]. split; [|exact (loose_ext L L' E C)]. intros s As. apply (right_ext x L), B, As. apply E. Qed.
Lemma pref_ext L L' x : (forall s, L s <-> L' s) -> pref L x -> pref L' x.
Proof.
  intros E [F Lo]. split; [|exact (loose_ext L L' E Lo)]. intros s As. specialize (F s As). destruct (sIndex x s) as [[[i segs]|]|]; [|intros j Hj H; apply E in H; exact (F j Hj H)|exact F].
  destruct F as [F1 [F2 F3]]. split; [exact F1|]. split; [intros Z j; rewrite <- E; apply F2, Z|]. intros P j Hj H. apply E in H. exact (F3 P j Hj H).
Qed.
Lemma fixed_sharp k L x : fixed k L x -> sharp L.
Proof. intros F. apply F. Qed.
Lemma fixed_pref k L x : fixed k L x -> pref L x.
Proof.
  intros [_ [K [C [_ [F Sh]]]]]. split; [|exact (sharp_loose L Sh)]. intros s As. specialize (F s As).
  assert (Q : forall j, j <= length s -> L (firstn j s) -> j = k /\ L (sub s 0 k)).
  { intros j Hj H. pose proof (C _ H) as E. rewrite firstn_length in E. assert (j = k) by lia. subst j. split; [reflexivity|exact H]. }
  destruct (sIndex x s) as [[[i segs]|]|]; [|intros j Hj H; apply (F 0), (Q j Hj H)|exact F].
  destruct F as [-> [F2 [F3 F4]]]. split; [lia|]. split.
  - intros -> j. split; [intros [<-|[]]; split; [lia|exact F3]|]. intros Hj H _. left. symmetry. apply (Q j Hj H).
  - intros P j Hj H. apply (F4 0 P). apply (Q j Hj H).
Qed.
End Classes.
#[global] Hint Resolve dom_firstn dom_skipn dom_sub dom_raw : asc.

(** ** Searching *)
Lemma prefix_sub s t : HasPrefix s t = true <-> firstn (length t) s = t.
Proof.
  rewrite HasPrefix_iff. split; [intros [r ->]; rewrite firstn_app, firstn_all, Nat.sub_diag, firstn_O; apply app_nil_r|].
  intros E. exists (skipn (length t) s). rewrite <- E at 1. symmetry. apply firstn_skipn.
Qed.
Lemma Index_spec t : forall s i, match Index_ s t i with
  | Some p => exists j, p = i + j /\ j + length t <= length s /\ sub s j (length t) = t /\ forall j', j' < j -> sub s j' (length t) <> t
  | None => forall j, j <= length s -> sub s j (length t) <> t end.
Proof.
  intros s. induction s as [|c s IH]; intros i; cbn [Index_].
  - destruct (HasPrefix [] t) eqn:P.
    + apply prefix_sub in P. exists 0. split; [lia|]. rewrite firstn_nil in P. subst t. split; [cbn; lia|]. split; [reflexivity|]. intros; lia.
    + intros j L E. cbn in L. assert (j = 0) by lia. subst j. apply not_true_iff_false in P. apply P, prefix_sub. exact E.
  - destruct (HasPrefix (c :: s) t) eqn:P.
    + apply prefix_sub in P. exists 0. split; [lia|]. split; [|split; [exact P|intros; lia]]. rewrite <- P at 1. rewrite firstn_length. lia.
    + specialize (IH (S i)). assert (N0 : sub (c :: s) 0 (length t) <> t) by (intros E; apply not_true_iff_false in P; apply P, prefix_sub; exact E).
      destruct (Index_ s t (S i)) as [p|].
      * destruct IH as [j [-> [L [E F]]]]. exists (S j). split; [lia|]. split; [cbn; lia|]. split; [exact E|]. intros [|j'] H; [exact N0|]. apply (F j'). lia.
      * intros [|j] L; [exact N0|]. apply IH. cbn in L. lia.
Qed.
Lemma index_of_spec s t : match index_of s t with
  | Some j => j + length t <= length s /\ sub s j (length t) = t /\ forall j', j' < j -> sub s j' (length t) <> t
  | None => forall j, j <= length s -> sub s j (length t) <> t end.
Proof. unfold index_of. pose proof (Index_spec t s 0) as H. destruct (Index_ s t 0); [|exact H]. destruct H as [j [-> H]]. exact H. Qed.
Lemma sub_one s j c : sub s j 1 = [c] <-> nth_error s j = Some c.
Proof.
  unfold sub. revert j. induction s as [|x s IH]; intros j; [destruct j; cbn; split; discriminate|]. destruct j as [|j]; [cbn; split; congruence|]. cbn [skipn nth_error]. apply IH.
Qed.
Lemma index_char s c : match index_of s [c] with
  | Some j => j < length s /\ nth_error s j = Some c /\ forall j', j' < j -> nth_error s j' <> Some c
  | None => ~ In c s end.
Proof.
  pose proof (index_of_spec s [c]) as H. destruct (index_of s [c]) as [j|].
  - destruct H as [A [B C]]. cbn [length] in *. split; [lia|]. split; [apply sub_one, B|]. intros j' L E. apply (C j' L). apply sub_one, E.
  - intros I. apply In_nth_error in I. destruct I as [j E]. apply (H j); [assert (j < length s) by (apply nth_error_Some; congruence); lia|]. apply sub_one. exact E.
Qed.
Lemma index_rune_ascii s r : (0 <= r < 128)%Z -> index_rune s r = index_of s [r].
Proof. intros H. unfold index_rune. destruct (Z.leb_spec 0 r); [|lia]. destruct (Z.ltb_spec r 128); [reflexivity|lia]. Qed.
(** IndexAnyRunes finds nothing exactly if there is nothing to find. *)
Lemma any_none s e : ascii e -> IndexAnyRunes s e = None <-> Forall (fun c => ~ In c e) s.
Proof.
  intros A. induction A as [|r e B A IH]; cbn [IndexAnyRunes].
  - split; [intros _; apply Forall_forall; intros c _ []|reflexivity].
  - rewrite index_rune_ascii by exact B. pose proof (index_char s r) as H. destruct (index_of s [r]) as [j|].
    + split; [discriminate|]. intros F. destruct H as [_ [H _]]. apply nth_error_In in H. rewrite Forall_forall in F. exfalso. apply (F r H). left. reflexivity.
    + rewrite IH, !Forall_forall. split; [intros F c I [<-|E]; [exact (H I)|exact (F c I E)]|intros F c I E; apply (F c I); right; exact E].
Qed.
Lemma any_one s c : (0 <= c < 128)%Z -> IndexAnyRunes s [c] = index_of s [c].
Proof. intros B. cbn [IndexAnyRunes]. rewrite index_rune_ascii by exact B. destruct (index_of s [c]); reflexivity. Qed.
Lemma find_range p s : ascii s -> forall a, match find (fun ir => p (snd ir)) (combine (seq a (length s)) s) with
  | Some (i, r) => exists j, i = a + j /\ j < length s /\ nth_error s j = Some r /\ p r = true /\ forall j' c, j' < j -> nth_error s j' = Some c -> p c = false
  | None => Forall (fun c => p c = false) s end.
Proof.
  induction 1 as [|c s B A IH]; intros a; cbn [length seq combine find snd]; [constructor|]. destruct (p c) eqn:P.
  - exists 0. split; [lia|]. split; [cbn; lia|]. split; [reflexivity|]. split; [exact P|]. intros; lia.
  - specialize (IH (S a)). destruct (find _ _) as [[i r]|].
    + destruct IH as [j [-> [L [E [Pr F]]]]]. exists (S j). split; [lia|]. split; [cbn; lia|]. split; [exact E|]. split; [exact Pr|].
      intros [|j'] d H N; [cbn in N; congruence|]. apply (F j' d); [lia|exact N].
    + constructor; assumption.
Qed.

(** ** The simple matchers *)
Section Matchers.
Context {md : Mode}.
Lemma fixed_text t : ascii t -> t <> [] -> fixed (length t) (fun s => s = t) (sem (MText t)).
Proof.
  intros A N. split; [cbn; rewrite range_len by exact A; reflexivity|]. split; [destruct t; [contradiction|cbn; lia]|]. split; [intros s ->; reflexivity|]. split; [|split; [|intros _ s ->; exact A]].
  - intros s _ _. exists (eqs t s). split; [reflexivity|]. rewrite eqs_iff. split; auto.
  - intros s As. cbn [sem sIndex]. pose proof (index_of_spec s t) as H. destruct (index_of s t) as [i|].
    + destruct H as [H1 [H2 H3]]. auto.
    + intros j. destruct (Nat.le_gt_cases j (length s)) as [L|L]; [apply H, L|]. unfold sub. rewrite skipn_all2 by lia. rewrite firstn_nil. intros E. apply N. symmetry. exact E.
Qed.
Definition one_of (p : Z -> bool) : lang := fun s => exists c, s = [c] /\ p c = true.
Lemma fixed_one p q x : sLen x = 1%Z -> (forall s, sMatch x s = Some (one_rune p s)) -> (forall s, sIndex x s = Some (first_rune q s)) -> (forall r, p r = q r) ->
  (is_bytes -> forall c, p c = true -> (0 <= c < 128)%Z) -> fixed 1 (one_of p) x.
Proof.
  intros HL HM HI PQ HS. assert (SH : sharp (one_of p)) by (intros U s [c [-> P]]; constructor; [apply (HS U c P)|constructor]).
  split; [exact HL|]. split; [lia|]. split; [intros s [c [-> _]]; reflexivity|]. split; [|split; [|exact SH]].
  - intros s As N. exists (one_rune p s). split; [apply HM|]. destruct s as [|c s]; [contradiction|]. unfold one_rune. pose proof (dom_raw _ As) as Ar.
    destruct (decode_cases c s Ar) as [[B D]|[h [t [r [E [Nh [Hh [Hr D]]]]]]]]; rewrite D.
    + destruct s as [|d s]; cbn [length]; [change (1 <? 1) with false; cbv iota|change (1 <? S (S (length s))) with true; cbv iota].
      * split; [intros P; exists c; auto|intros [c' [E P]]; injection E as <-; exact P].
      * split; [discriminate|]. intros [c' [E _]]. discriminate.
    + assert (U : is_bytes). { destruct is_bytes_dec as [U|U]; [exact U|]. exfalso. pose proof (dom_ascii _ U As) as Aa. rewrite E in Aa. apply ascii_app in Aa. destruct Aa as [Aa _]. destruct h; [contradiction|]. inversion Aa; subst. inversion Hh; subst. unfold high in *. lia. }
      assert (X : one_of p (c :: s) -> False). { intros [c' [E' P]]. apply (HS U) in P. rewrite E in E'. destruct h as [|b h]; [contradiction|]. injection E' as -> _. inversion Hh; subst. unfold high in *. lia. }
      split; [|intros H; destruct (X H)]. destruct (length h <? length (c :: s)); [discriminate|]. intros P. apply (HS U) in P. lia.
  - intros s As. rewrite HI. unfold first_rune.
    assert (H : match find (fun ir => q (snd ir)) (range_str s) with
      | Some (i, r) => i < length s /\ nth_error s i = Some r /\ q r = true /\ (forall j' c, j' < i -> nth_error s j' = Some c -> q c = false)
      | None => Forall (fun c => q c = false) s end).
    { destruct is_bytes_dec as [U|U]; [apply find_raw; [intros c P; apply (HS U); rewrite PQ; exact P|apply dom_raw, As]|].
      pose proof (dom_ascii _ U As) as Aa. rewrite range_ascii by exact Aa. pose proof (find_range q s Aa 0) as H. destruct (find _ _) as [[i r]|]; [|exact H]. destruct H as [j [-> H]]. exact H. }
    destruct (find _ _) as [[i r]|].
    + destruct H as [L [E [P F]]]. assert (B : (0 <= r < 128)%Z). { destruct is_bytes_dec as [U|U]; [apply (HS U); rewrite PQ; exact P|]. pose proof (dom_ascii _ U As) as Aa. apply nth_error_In in E. unfold ascii in Aa. rewrite Forall_forall in Aa. apply Aa, E. }
      split; [unfold RuneLen; rewrite encode_ascii by exact B; reflexivity|]. split; [lia|]. split; [exists r; split; [apply sub_one, E|rewrite PQ; exact P]|].
      intros j' Lj [c [Ec Pc]]. apply sub_one in Ec. rewrite PQ in Pc. rewrite (F j' c Lj Ec) in Pc. discriminate.
    + intros j [c [Ec Pc]]. apply sub_one in Ec. apply nth_error_In in Ec. rewrite Forall_forall in H. rewrite PQ, (H c Ec) in Pc. discriminate.
Qed.
Lemma inRunes_iff l r : inRunes l r = true <-> In r l.
Proof. unfold inRunes. rewrite existsb_exists. split; [intros [x [I E]]; apply Z.eqb_eq in E; subst; exact I|intros I; exists r; split; [exact I|apply Z.eqb_refl]]. Qed.
(** One character not in e. *)
Definition oneL (e : list Z) : lang := fun s => exists c, s = [c] /\ ~ In c e.
Lemma oneL_iff e s : one_of (fun r => negb (inRunes e r)) s <-> oneL e s.
Proof. unfold one_of, oneL. split; intros [c [E P]]; exists c; (split; [exact E|]); [rewrite <- inRunes_iff; apply negb_true_iff, not_true_iff_false in P; exact P|apply negb_true_iff, not_true_iff_false; rewrite inRunes_iff; exact P]. Qed.
Lemma fixed_single e : ~ is_bytes -> fixed 1 (oneL e) (sem (MSingle e)).
Proof. intros NU. apply (fixed_ext 1 (one_of (fun r => negb (inRunes e r)))); [apply oneL_iff|]. eapply fixed_one; [reflexivity|intros; reflexivity|intros; reflexivity|reflexivity|contradiction]. Qed.
Lemma fixed_list_not e : ~ is_bytes -> fixed 1 (oneL e) (sem (MList e true)).
Proof.
  intros NU.   apply (fixed_ext 1 (one_of (fun r => negb (inRunes e r)))); [apply oneL_iff|].
  assert (E : forall s, one_of (fun r => Bool.eqb (inRunes e r) (negb true)) s <-> one_of (fun r => negb (inRunes e r)) s) by (intros s; unfold one_of; split; intros [c [A B]]; exists c; destruct (inRunes e c); auto).
  apply (fixed_ext 1 _ _ _ E). eapply fixed_one; [reflexivity|intros; reflexivity|intros; reflexivity| |contradiction]. intros r. cbn. destruct (inRunes e r); reflexivity.
Qed.
Lemma fixed_list e : (is_bytes -> ascii e) -> fixed 1 (fun s => exists c, s = [c] /\ In c e) (sem (MList e false)).
Proof.
  intros Ae.
  apply (fixed_ext 1 (one_of (fun r => Bool.eqb (inRunes e r) (negb false)))).
  - intros s. unfold one_of. split; intros [c [A B]]; exists c; (split; [exact A|]).
    + apply inRunes_iff. destruct (inRunes e c); [reflexivity|discriminate].
    + apply inRunes_iff in B. rewrite B. reflexivity.
  - eapply fixed_one; [reflexivity|intros; reflexivity|intros; reflexivity| |].
    + intros r. cbn. destruct (inRunes e r); reflexivity.
    + intros U c P. specialize (Ae U). unfold ascii in Ae. rewrite Forall_forall in Ae. apply Ae, inRunes_iff. destruct (inRunes e c); [reflexivity|discriminate].
Qed.
Lemma fixed_range lo hi : (is_bytes -> 0 <= lo /\ hi < 128)%Z -> fixed 1 (fun s => exists c, s = [c] /\ (lo <= c <= hi)%Z) (sem (MRange lo hi false)).
Proof.
  intros Ae.
  apply (fixed_ext 1 (one_of (fun r => Bool.eqb ((lo <=? r) && (r <=? hi))%Z (negb false)))).
  - intros s. unfold one_of. split; intros [c [A B]]; exists c; (split; [exact A|]).
    + destruct ((lo <=? c) && (c <=? hi))%Z eqn:E; [|discriminate]. apply andb_true_iff in E. destruct E as [E1 E2]. apply Z.leb_le in E1. apply Z.leb_le in E2. auto.
    + destruct B as [B1 B2]. apply Z.leb_le in B1. apply Z.leb_le in B2. rewrite B1, B2. reflexivity.
  - eapply fixed_one; [reflexivity|intros; reflexivity|intros; reflexivity| |].
    + intros r. cbn. destruct (_ && _); reflexivity.
    + intros U c P. specialize (Ae U). destruct (Z.leb_spec lo c), (Z.leb_spec c hi); try discriminate P. lia.
Qed.
Lemma fixed_range_not lo hi : ~ is_bytes -> fixed 1 (fun s => exists c, s = [c] /\ ~ (lo <= c <= hi)%Z) (sem (MRange lo hi true)).
Proof.
  intros NU.
  apply (fixed_ext 1 (one_of (fun r => Bool.eqb ((lo <=? r) && (r <=? hi))%Z (negb true)))).
  - intros s. unfold one_of. split; intros [c [A B]]; exists c; (split; [exact A|]).
    + intros [B1 B2]. apply Z.leb_le in B1. apply Z.leb_le in B2. rewrite B1, B2 in B. discriminate.
    + destruct ((lo <=? c) && (c <=? hi))%Z eqn:E; [|reflexivity]. apply andb_true_iff in E. destruct E as [E1 E2]. apply Z.leb_le in E1. apply Z.leb_le in E2. exfalso. auto.
  - eapply fixed_one; [reflexivity|intros; reflexivity|intros; reflexivity| |contradiction]. intros r. cbn. destruct (_ && _); reflexivity.
Qed.
(** No character in e. *)
Definition anyL (e : list Z) : lang := Forall (fun c => ~ In c e).
Lemma anyL_app e a b : anyL e (a ++ b) <-> anyL e a /\ anyL e b.
Proof. apply Forall_app. Qed.
Lemma loose_any e : ascii e -> loose (anyL e).
Proof.
  intros Ae _ x b y bs Hb H F. apply anyL_app in H. destruct H as [H1 H2]. inversion H2; subst. apply anyL_app. split; [exact H1|]. apply anyL_app. split; [|assumption].
  eapply Forall_impl; [|exact F]. intros c Hc I. unfold ascii in Ae. rewrite Forall_forall in Ae. apply Ae in I. unfold high in Hc. lia.
Qed.
Lemma free_any e : ascii e -> free (anyL e) (sem (MAny e)).
Proof. intros A. split; [reflexivity|]. split; [|exact (loose_any e A)]. intros s As. cbn [sem]. eexists. split; [reflexivity|]. rewrite <- (any_none s e A). destruct (IndexAnyRunes s e); split; congruence || discriminate. Qed.
Lemma In_seq0 j n : In j (seq 0 (S n)) <-> j <= n.
Proof. rewrite in_seq. lia. Qed.
Lemma nth_error_firstn_lt {A} (l : list A) : forall i j, i < j -> nth_error (firstn j l) i = nth_error l i.
Proof. induction l as [|x l IH]; intros i j H; [rewrite firstn_nil; reflexivity|]. destruct j as [|j]; [lia|]. destruct i as [|i]; [reflexivity|]. cbn. apply IH. lia. Qed.
(** The beginnings of s without the character c are those up to its first occurrence. *)
Lemma any_firstn s c i : nth_error s i = Some c -> (forall j, j < i -> nth_error s j <> Some c) -> forall j, j <= length s -> (anyL [c] (firstn j s) <-> j <= i).
Proof.
  intros E F j L. split.
  - intros H. destruct (Nat.le_gt_cases j i) as [?|G]; [assumption|]. exfalso. unfold anyL in H. rewrite Forall_forall in H. apply (H c); [|left; reflexivity].
    apply nth_error_In with (n := i). rewrite <- E. apply nth_error_firstn_lt. exact G.
  - intros G. apply Forall_forall. intros d I [<-|[]]. apply In_nth_error in I. destruct I as [k Ek]. assert (K : k < length (firstn j s)) by (apply nth_error_Some; congruence).
    rewrite firstn_length in K. apply (F k); [lia|]. rewrite <- Ek. symmetry. apply nth_error_firstn_lt. lia.
Qed.
(** The segments of s up to n: all positions, or at least the edges of s. *)
Lemma segments_to s n j : dom s -> n <= length s -> (In j (all_segments (firstn n s)) -> j <= n) /\ (j <= n -> (is_bytes -> edge s j) -> In j (all_segments (firstn n s))).
Proof.
  intros As Ln. assert (Lf : length (firstn n s) = n) by (rewrite firstn_length; lia). split.
  - intros I. apply segments_inside in I; [lia|]. apply dom_raw, dom_firstn, As.
  - intros Lj E. destruct is_bytes_dec as [U|U].
    + apply edge_segments; [apply dom_raw, dom_firstn, As|lia|]. destruct (Nat.eq_dec j n) as [->|Nj]; [right; left; lia|]. destruct (E U) as [E1|[E1|[c [C [E1|E1]]]]]; [left; exact E1|lia| |]; right; right; exists c; (split; [exact C|]); [left|right]; rewrite nth_error_firstn_lt by lia; exact E1.
    + rewrite all_segments_ascii by (apply dom_ascii; [exact U|apply dom_firstn, As]). rewrite In_seq0, Lf. exact Lj.
Qed.
Lemma segments_of s j : dom s -> (In j (all_segments s) -> j <= length s) /\ (j <= length s -> (is_bytes -> edge s j) -> In j (all_segments s)).
Proof. intros As. pose proof (segments_to s (length s) j As (le_n _)) as H. rewrite firstn_all in H. exact H. Qed.
Lemma pref_any e : ascii e -> length e <= 1 -> pref (anyL e) (sem (MAny e)).
Proof.
  intros Ae Le. split; [|exact (loose_any e Ae)]. intros s As. cbn [sem sIndex]. destruct e as [|c [|? ?]]; [| |cbn in Le; lia].
  - cbn [IndexAnyRunes]. split; [lia|]. split; [|lia]. intros _ j. destruct (segments_of s j As) as [S1 S2]. split; [intros H; split; [exact (S1 H)|apply Forall_forall; intros d _ []]|intros H _; exact (S2 H)].
  - inversion Ae; subst. rewrite any_one by assumption. pose proof (index_char s c) as H. destruct (index_of s [c]) as [i|].
    + destruct H as [L [E F]]. assert (Q := any_firstn s c i E F).
      assert (R : forall j, (In j (all_segments (firstn i s)) -> j <= length s /\ anyL [c] (firstn j s)) /\ (j <= length s -> anyL [c] (firstn j s) -> (is_bytes -> edge s j) -> In j (all_segments (firstn i s)))).
      { intros j. destruct (segments_to s i j As ltac:(lia)) as [S1 S2]. split; [intros G; apply S1 in G; split; [lia|apply Q; lia]|intros G1 G2 G3; apply Q in G2; [exact (S2 G2 G3)|exact G1]]. }
      destruct i as [|i].
      * split; [lia|]. split; [|lia]. intros _ j. exact (R j).
      * split; [lia|]. split; [|lia]. intros _ j. apply R.
    + split; [lia|]. split; [|lia]. intros _ j. destruct (segments_of s j As) as [S1 S2]. split; [|intros G _; exact (S2 G)]. intros G. split; [exact (S1 G)|].
      apply Forall_forall. intros d I [<-|[]]. apply H. rewrite <- (firstn_skipn j s). apply in_or_app. left. exact I.
Qed.
Lemma loose_super : loose (fun _ => True).
Proof. intros _ x b y bs _ _ _. exact I. Qed.
Lemma free_super : free (fun _ => True) (sem MSuper).
Proof. split; [reflexivity|]. split; [|exact loose_super]. intros s _. exists true. split; [reflexivity|tauto]. Qed.
Lemma pref_super : pref (fun _ => True) (sem MSuper).
Proof. split; [|exact loose_super]. intros s As. cbn [sem sIndex]. split; [lia|]. split; [|lia]. intros _ j. destruct (segments_of s j As) as [S1 S2]. split; [intros G; split; [exact (S1 G)|exact I]|intros G _; exact (S2 G)]. Qed.
(** Only for ASCII strings. *)
Lemma no_loose L : ~ is_bytes -> loose L.
Proof. intros N U. contradiction. Qed.
Lemma free_min n : ~ is_bytes -> 1 <= n -> free (fun s => n <= length s) (sem (MMin n)).
Proof.
  intros NU N. split; [reflexivity|]. split; [|exact (no_loose _ NU)]. intros s As. apply (dom_ascii _ NU) in As. eexists. split; [reflexivity|]. rewrite range_len by exact As. rewrite andb_true_iff, Nat.ltb_lt, Nat.leb_le. lia.
Qed.
Lemma skipn_seq n : forall a k, skipn n (seq a k) = seq (a + n) (k - n).
Proof. induction n as [|n IH]; intros a k; [rewrite Nat.add_0_r, Nat.sub_0_r; reflexivity|]. destruct k as [|k]; [reflexivity|]. cbn [seq skipn]. rewrite IH. f_equal; lia. Qed.
Lemma skipn_map' {A B} (f : A -> B) l : forall n, skipn n (map f l) = map f (skipn n l).
Proof. induction l as [|x l IH]; intros [|n]; try reflexivity. cbn. apply IH. Qed.
Lemma firstn_seq n : forall a k, firstn n (seq a k) = seq a (min n k).
Proof. induction n as [|n IH]; intros a k; [reflexivity|]. destruct k as [|k]; [reflexivity|]. cbn [seq firstn Nat.min]. rewrite IH. reflexivity. Qed.
Lemma min_index n s : 1 <= n -> ascii s -> sIndex (sem (MMin n)) s = Some (if length s <? n then None else Some (0, seq n (S (length s - n)))).
Proof.
  intros N As. cbn [sem sIndex]. f_equal. destruct (Nat.ltb_spec (length s) n) as [L|L].
  - destruct (Z.leb_spec (Z.of_nat (length s) - Z.of_nat n + 1) 0); [reflexivity|lia].
  - destruct (Z.leb_spec (Z.of_nat (length s) - Z.of_nat n + 1) 0); [lia|].
    pose proof (range_ends s As 0) as R. cbn [plus] in R. rewrite <- skipn_map'. cbn [plus]. rewrite R, skipn_seq. replace (1 + (n - 1)) with n by lia. replace (length s - (n - 1)) with (S (length s - n)) by lia. reflexivity.
Qed.
Lemma pref_min n : ~ is_bytes -> 1 <= n -> pref (fun s => n <= length s) (sem (MMin n)).
Proof.
  intros NU N. split; [|exact (no_loose _ NU)]. intros s As. apply (dom_ascii _ NU) in As. rewrite min_index by assumption. destruct (Nat.ltb_spec (length s) n) as [L|L].
  - intros j Hj. rewrite firstn_length. lia.
  - split; [lia|]. split; [|lia]. intros _ j. rewrite in_seq, firstn_length. split; [lia|]. intros; lia.
Qed.
(** *** EveryOf over Min, Max and an excluded character *)
Lemma max_index n s : ascii s -> sIndex (sem (MMax n)) s = Some (Some (0, seq 0 (S (min n (length s))))).
Proof.
  intros As. cbn [sem sIndex]. f_equal. f_equal. f_equal. cbn [seq]. f_equal. pose proof (range_ends s As 0) as R. cbn [plus] in *. rewrite <- firstn_map, R, firstn_seq. reflexivity.
Qed.
Definition needle_end (s : str) (c : Z) : nat := match index_of s [c] with Some i => i | None => length s end.
Lemma contains_index c s : ascii s -> sIndex (sem (MContains [c] true)) s = Some (Some (0, seq 0 (S (needle_end s c)))).
Proof.
  intros As. cbn [sem sIndex]. unfold needle_end. pose proof (index_char s c) as H. destruct (index_of s [c]) as [i|]; f_equal; f_equal; f_equal; rewrite all_segments_ascii by auto with asc; [|reflexivity].
  rewrite firstn_length. do 2 f_equal. lia.
Qed.
Lemma needle_end_spec s c : needle_end s c <= length s /\ forall j, j <= length s -> (anyL [c] (firstn j s) <-> j <= needle_end s c).
Proof.
  unfold needle_end. pose proof (index_char s c) as H. destruct (index_of s [c]) as [i|].
  - destruct H as [L [E F]]. split; [lia|]. apply (any_firstn s c i E F).
  - split; [lia|]. intros j L. split; [auto|]. intros _. apply Forall_forall. intros d I [<-|[]]. apply H. rewrite <- (firstn_skipn j s). apply in_or_app. left. exact I.
Qed.
Lemma slice_all s : slice s 0 (length s) = Some s.
Proof. unfold slice. cbn [Nat.leb andb]. rewrite Nat.leb_refl. cbn [skipn]. rewrite Nat.sub_0_r, firstn_all. reflexivity. Qed.
(** Every further member that answers at 0 keeps the common lengths. *)
Lemma every_step cur x t s segs : sIndex x s = Some (Some (0, segs)) -> exists next, (forall j, In j next <-> In j cur /\ In j segs) /\
  every_index false (x :: t) s s 0 0 cur = if length next =? 0 then Some None else every_index false t s s 0 0 next.
Proof.
  intros E. cbn [every_index]. rewrite E. cbn [plus negb andb].
  set (next := flat_map (fun ex => filter (fun n => (Z.of_nat ex + (Z.of_nat 0 - Z.of_nat 0) =? Z.of_nat n)%Z) segs) cur). exists next. split.
  - intros j. unfold next. rewrite in_flat_map. split.
    + intros [ex [I F]]. apply filter_In in F. destruct F as [F1 F2]. apply Z.eqb_eq in F2. assert (j = ex) by lia. subst. auto.
    + intros [I F]. exists j. split; [exact I|]. apply filter_In. split; [exact F|]. apply Z.eqb_eq. lia.
  - rewrite slice_all. reflexivity.
Qed.
Lemma pref_segs L x s segs : sIndex x s = (if length segs =? 0 then Some None else Some (Some (0, segs))) -> (forall j, In j segs <-> j <= length s /\ L (firstn j s)) ->
  match sIndex x s with
     | Some (Some (i, segs)) => i <= length s /\ (i = 0 -> forall j, (In j segs -> j <= length s /\ L (firstn j s)) /\ (j <= length s -> L (firstn j s) -> (is_bytes -> edge s j) -> In j segs))
         /\ (0 < i -> forall j, j <= length s -> ~ L (firstn j s))
     | Some None => forall j, j <= length s -> ~ L (firstn j s)
     | None => False end.
Proof.
  intros -> H. destruct segs as [|a segs]; cbn [length Nat.eqb].
  - intros j Lj Hj. apply (in_nil (a := j)), H. auto.
  - split; [lia|]. split; [|lia]. intros _ j. split; [apply H|]. intros H1 H2 _. apply H. auto.
Qed.
(** What AsEvery makes of n >= 1 single wildcards, possibly with stars (m = false) and one excluded character. *)
Definition everyL (e : list Z) (n : nat) (more : bool) : lang := fun s => anyL e s /\ (if more then n <= length s else length s = n).
Definition everyM (e : list Z) (n : nat) (more : bool) : Matcher :=
  MEveryOf (MMin n :: (if more then [] else [MMax n]) ++ (if 0 <? length e then [MContains (utf8 e) true] else [])).
Lemma free_every e n more : ~ is_bytes -> ascii e -> length e <= 1 -> 1 <= n -> free (everyL e n more) (sem (everyM e n more)).
Proof.
  intros NU Ae Le N. split; [destruct more, e; reflexivity|]. split; [|exact (no_loose _ NU)]. intros s As. apply (dom_ascii _ NU) in As. unfold right, everyM, everyL. cbn [sem sMatch map every_match].
  rewrite range_len by exact As.
  assert (HC : forall c, (0 <= c < 128)%Z -> (negb (Bool.eqb match index_of s (utf8 [c]) with Some _ => true | None => false end true) = true <-> anyL [c] s)).
  { intros c B. unfold utf8. cbn [map concat app]. rewrite encode_ascii by exact B. cbn [app]. pose proof (index_char s c) as H. destruct (index_of s [c]) as [i|].
    - cbn. split; [discriminate|]. intros F. destruct H as [_ [H _]]. apply nth_error_In in H. unfold anyL in F. rewrite Forall_forall in F. exfalso. apply (F c H). left. reflexivity.
    - cbn. split; [|auto]. intros _. apply Forall_forall. intros d I [<-|[]]. exact (H I). }
  assert (A0 : anyL [] s) by (apply Forall_forall; intros d _ []).
  destruct ((0 <? length s) && (n <=? length s)) eqn:E1.
  - apply andb_true_iff in E1. destruct E1 as [_ E1]. apply Nat.leb_le in E1. destruct e as [|c [|? ?]]; [| |cbn in Le; lia].
    + destruct more; cbn [length Nat.ltb Nat.leb map app every_match sem sMatch].
      * exists true. tauto.
      * rewrite range_len by exact As. destruct (Nat.leb_spec (length s) n) as [E2|E2]; eexists; (split; [reflexivity|]); [split; [intros _; split; [exact A0|lia]|reflexivity]|split; [discriminate|lia]].
    + inversion Ae; subst. specialize (HC c H1). destruct more; cbn [length Nat.ltb Nat.leb map app every_match sem sMatch].
      * destruct (negb _); eexists; (split; [reflexivity|]); [split; [intros _; split; [apply HC; reflexivity|lia]|reflexivity]|split; [discriminate|intros [D _]; apply HC, D]].
      * rewrite range_len by exact As. destruct (Nat.leb_spec (length s) n) as [E2|E2]; [|eexists; split; [reflexivity|split; [discriminate|lia]]].
        destruct (negb _); eexists; (split; [reflexivity|]); [split; [intros _; split; [apply HC; reflexivity|lia]|reflexivity]|split; [discriminate|intros [D _]; apply HC, D]].
  - exists false. split; [reflexivity|]. split; [discriminate|]. intros [_ H]. exfalso. apply andb_false_iff in E1. rewrite Nat.ltb_ge, Nat.leb_gt in E1. destruct more; lia.
Qed.
Lemma pref_every e n more : ~ is_bytes -> ascii e -> length e <= 1 -> 1 <= n -> pref (everyL e n more) (sem (everyM e n more)).
Proof.
  intros NU Ae Le N. split; [|exact (no_loose _ NU)]. intros s As. apply (dom_ascii _ NU) in As.
  assert (I0 : sIndex (sem (everyM e n more)) s = if length s <? n then Some None else every_index false (map sem ((if more then [] else [MMax n]) ++ (if 0 <? length e then [MContains (utf8 e) true] else []))) s s 0 0 (seq n (S (length s - n)))).
  { unfold everyM. cbn [sem sIndex map]. change (every_index true (sem (MMin n) :: ?t) s s 0 0 []) with (match sIndex (sem (MMin n)) s with None => None | Some None => Some None | Some (Some (idx, seg)) => match slice s (idx + 0) (length s) with None => None | Some sub' => every_index false t s sub' (idx + 0) (0 + idx) seg end end).
    cbn [every_index]. fold (sem (MMin n)). match goal with |- context [sIndex ?x s] => change (sIndex x s) with (sIndex (sem (MMin n)) s) end. rewrite min_index by assumption. destruct (length s <? n); [reflexivity|]. cbn [plus negb andb]. rewrite slice_all. reflexivity. }
  destruct (Nat.ltb_spec (length s) n) as [L|L].
  { rewrite I0. intros j Hj [_ H]. rewrite firstn_length in H. destruct more; lia. }
  assert (Q : forall c, (0 <= c < 128)%Z -> utf8 [c] = [c]) by (intros c B; unfold utf8; cbn [map concat]; rewrite encode_ascii by exact B; reflexivity).
  assert (A0 : forall j, anyL [] (firstn j s)) by (intros j; apply Forall_forall; intros d _ []).
  assert (G : exists segs, sIndex (sem (everyM e n more)) s = (if length segs =? 0 then Some None else Some (Some (0, segs))) /\ forall j, In j segs <-> j <= length s /\ everyL e n more (firstn j s)).
  { rewrite I0. clear I0. set (c0 := seq n (S (length s - n))) in *. assert (C0 : forall j, In j c0 <-> n <= j <= length s) by (intros j; unfold c0; rewrite in_seq; lia).
    assert (C0n : length c0 =? 0 = false) by reflexivity. clearbody c0.
    destruct e as [|c [|? ?]]; [| |cbn in Le; lia].
    - cbn [length Nat.ltb Nat.leb]. destruct more; cbn [app map].
      + exists c0. cbn [every_index]. rewrite C0n. split; [reflexivity|]. intros j. rewrite C0. unfold everyL. rewrite firstn_length. pose proof (A0 j). intuition lia.
      + destruct (every_step c0 (sem (MMax n)) [] s _ (max_index n s As)) as [next [H1 H2]]. exists next. rewrite H2. cbn [every_index]. split; [reflexivity|].
        intros j. rewrite H1, C0, in_seq. unfold everyL. rewrite firstn_length. pose proof (A0 j). intuition lia.
    - inversion Ae; subst. rewrite (Q c) by assumption. destruct (needle_end_spec s c) as [NE1 NE2]. cbn [length Nat.ltb Nat.leb]. destruct more; cbn [app map].
      + destruct (every_step c0 (sem (MContains [c] true)) [] s _ (contains_index c s As)) as [next [I1 I2]]. exists next. rewrite I2. cbn [every_index]. split; [reflexivity|].
        intros j. rewrite I1, C0, in_seq. unfold everyL. rewrite firstn_length. split; [intros [P1 P2]; split; [lia|split; [apply NE2; lia|lia]]|intros [P1 [P2 P3]]; apply NE2 in P2; lia].
      + destruct (every_step c0 (sem (MMax n)) [sem (MContains [c] true)] s _ (max_index n s As)) as [next [I1 I2]]. rewrite I2.
        destruct (length next =? 0) eqn:Z0.
        * exists []. split; [reflexivity|]. intros j. split; [intros []|]. intros [P1 [P2 P3]]. rewrite firstn_length in P3. apply Nat.eqb_eq, length_zero_iff_nil in Z0. subst next. apply (I1 j). rewrite C0, in_seq. lia.
        * destruct (every_step next (sem (MContains [c] true)) [] s _ (contains_index c s As)) as [nx [J1 J2]]. exists nx. rewrite J2. cbn [every_index]. split; [reflexivity|].
          intros j. rewrite J1, I1, C0, !in_seq. unfold everyL. rewrite firstn_length. split; [intros [[P1 P2] P3]; split; [lia|split; [apply NE2; lia|lia]]|intros [P1 [P2 P3]]; apply NE2 in P2; lia]. }
  destruct G as [segs [G1 G2]]. apply (pref_segs _ _ _ segs G1 G2).
Qed.

(** ** Row *)
(** Members of fixed lengths, with their languages. *)
Inductive row_of : list Sem -> list lang -> nat -> Prop :=
  | row_nil : row_of [] [] 0
  | row_cons x xs L Ls k n : fixed k L x -> row_of xs Ls n -> row_of (x :: xs) (L :: Ls) (k + n).
Lemma row_len xs Ls n : row_of xs Ls n -> forall s, catL Ls s -> length s = n.
Proof.
  induction 1 as [|x xs L Ls k n F R IH]; intros s; cbn [catL]; [intros ->; reflexivity|]. intros [u [v [-> [A B]]]]. rewrite app_length, (IH v B). destruct F as [_ [_ [C _]]]. rewrite (C u A). reflexivity.
Qed.
Lemma slice_some s a b : a <= b -> b <= length s -> slice s a b = Some (sub s a (b - a)).
Proof. intros H1 H2. unfold slice. rewrite (proj2 (Nat.leb_le _ _) H1), (proj2 (Nat.leb_le _ _) H2). reflexivity. Qed.
Lemma sub_all s a : sub s a (length s - a) = skipn a s.
Proof. unfold sub. apply firstn_all2. rewrite skipn_length. lia. Qed.
Lemma sub_sum s a k n : sub s a (k + n) = sub s a k ++ sub s (a + k) n.
Proof.
  unfold sub. rewrite <- skipn_add. rewrite <- (firstn_skipn k (skipn a s)) at 1.
  assert (G : forall (x y : str), length x = k \/ y = [] /\ length x <= k -> firstn (k + n) (x ++ y) = x ++ firstn n y).
  { intros x y [E|[-> E]]; [rewrite firstn_app, firstn_all2 by lia; f_equal; f_equal; lia|]. rewrite app_nil_r, firstn_nil, app_nil_r. apply firstn_all2. lia. }
  apply G. rewrite firstn_length. destruct (Nat.le_gt_cases k (length (skipn a s))) as [H|H]; [left; lia|right]. split; [apply skipn_all2; lia|lia].
Qed.
Lemma app_inj_len {A} (a : list A) : forall b c d, a ++ b = c ++ d -> length a = length c -> a = c /\ b = d.
Proof. induction a as [|x a IH]; intros b [|y c] d E L; try discriminate L; [auto|]. cbn in E. injection E as -> E. destruct (IH _ _ _ E) as [-> ->]; [cbn in L; lia|]. auto. Qed.
Lemma catL_sub x xs L Ls k n s a : fixed k L x -> row_of xs Ls n -> a + (k + n) <= length s ->
  (catL (L :: Ls) (sub s a (k + n)) <-> L (sub s a k) /\ catL Ls (sub s (a + k) n)).
Proof.
  intros F R H. rewrite sub_sum. cbn [catL]. split; [|intros [A B]; eauto].
  intros [u [v [E [A B]]]]. destruct F as [_ [_ [C _]]]. pose proof (C u A) as Lu.
  assert (E2 : length (sub s a k) = k) by (apply sub_len; lia).
  destruct (app_inj_len _ _ _ _ E) as [<- <-]; [lia|]. auto.
Qed.
Lemma row_sharp xs Ls n : row_of xs Ls n -> sharp (catL Ls).
Proof.
  induction 1 as [|x xs L Ls k n F R IH]; intros U s; cbn [catL]; [intros ->; constructor|]. intros [u [v [-> [A B]]]]. apply ascii_app. split; [apply (fixed_sharp _ _ _ F U u A)|apply (IH U v B)].
Qed.
(** What Row looks at for a member: its k characters, or something with a high byte, or there are too few. *)
Lemma row_scan_spec s k : dom s -> 1 <= k -> let '(nx, a) := row_scan (range_str s) (Z.of_nat k) 0 0 in
  (a < k /\ (is_bytes \/ length s < k) /\ ~ (k <= length s /\ ascii (firstn k s))) \/ (a = k /\ k <= length s /\ nx = k - 1)
  \/ (a = k /\ is_bytes /\ nx < length s /\ exists q b, q < k /\ q <= nx /\ nth_error s q = Some b /\ high b).
Proof.
  intros As K. pose proof (row_scan_raw s k (dom_raw s As) K) as H. destruct (row_scan _ _ 0 0) as [nx a]. destruct H as [[H1 H2]|[[H1 [H2 [H3 H4]]]|[H1 [H2 [q [b [H3 [H4 [H5 H6]]]]]]]]].
  - left. split; [exact H1|]. split; [|exact H2]. destruct is_bytes_dec as [U|U]; [left; exact U|right]. destruct (Nat.lt_ge_cases (length s) k) as [L|L]; [exact L|]. exfalso. apply H2. split; [exact L|]. apply dom_ascii; [exact U|apply dom_firstn, As].
  - right. left. auto.
  - right. right. split; [exact H1|]. destruct is_bytes_dec as [U|U]; [split; [exact U|]; split; [exact H2|]; exists q, b; auto|]. exfalso. apply (dom_ascii _ U) in As. apply nth_error_In in H5. unfold ascii in As. rewrite Forall_forall in As. apply As in H5. unfold high in H6. lia.
Qed.
Lemma nth_sub s a k q b : q < k -> nth_error (skipn a s) q = Some b -> In b (sub s a k).
Proof. intros L N. unfold sub. apply nth_error_In with (n := q). rewrite nth_error_firstn_lt by exact L. exact N. Qed.
Lemma high_not_ascii s b : In b s -> high b -> ~ ascii s.
Proof. intros I0 H A. unfold ascii in A. rewrite Forall_forall in A. apply A in I0. unfold high in H. lia. Qed.
Lemma row_all_spec xs Ls n : row_of xs Ls n -> forall s a, dom s -> a <= length s ->
  exists b, row_all xs s a = Some b /\ (b = true <-> a + n <= length s /\ catL Ls (sub s a n)).
Proof.
  induction 1 as [|x xs L Ls k n F R IH]; intros s a As La; cbn [row_all].
  - exists true. split; [reflexivity|]. split; [|reflexivity]. intros _. split; [lia|reflexivity].
  - rewrite slice_some by lia. rewrite sub_all. pose proof F as [FL [FK [FC [FM [_ FS]]]]]. rewrite FL.
    pose proof (row_scan_spec (skipn a s) k ltac:(auto with asc) FK) as H. destruct (row_scan _ _ 0 0) as [nx i]. rewrite skipn_length in H. destruct H as [[H1 [H2 H3]]|[[-> [H ->]]|[-> [U [H1 [q [d [H2 [H3 [H4 H5]]]]]]]]]].
    + destruct (Z.ltb_spec (Z.of_nat i) (Z.of_nat k)); [|lia]. exists false. split; [reflexivity|]. split; [discriminate|]. intros [P1 P2]. exfalso. destruct H2 as [U|H2]; [|lia]. apply (catL_sub x xs L Ls k n s a F R P1) in P2. destruct P2 as [P2 _]. apply (FS U) in P2. apply H3. split; [lia|exact P2].
    + destruct (Z.ltb_spec (Z.of_nat k) (Z.of_nat k)); [lia|].
      rewrite slice_some by lia. replace (a + (k - 1) + 1 - a) with k by lia. replace (a + (k - 1) + 1) with (a + k) by lia.
      destruct (FM (sub s a k)) as [b [Mb Hb]]; [auto with asc|intros E; pose proof (sub_len s a k ltac:(lia)) as E2; rewrite E in E2; cbn in E2; lia|]. rewrite Mb.
      destruct (IH s (a + k) As ltac:(lia)) as [b' [M' H']].
      destruct b.
      * exists b'. split; [exact M'|]. rewrite H'. split; intros [P1 P2]; (split; [lia|]).
        -- apply (catL_sub x xs L Ls k n s a F R ltac:(lia)). split; [apply Hb; reflexivity|exact P2].
        -- apply (catL_sub x xs L Ls k n s a F R ltac:(lia)) in P2. apply P2.
      * exists false. split; [reflexivity|]. split; [discriminate|]. intros [P1 P2]. apply (catL_sub x xs L Ls k n s a F R ltac:(lia)) in P2. apply Hb, P2.
    + destruct (Z.ltb_spec (Z.of_nat k) (Z.of_nat k)); [lia|]. rewrite slice_some by lia. replace (a + nx + 1 - a) with (nx + 1) by lia.
      destruct (FM (sub s a (nx + 1))) as [b [Mb Hb]]; [auto with asc|intros E; pose proof (sub_len s a (nx + 1) ltac:(lia)) as E2; rewrite E in E2; cbn in E2; lia|]. rewrite Mb.
      destruct b; [exfalso; apply (high_not_ascii (sub s a (nx + 1)) d (nth_sub s a (nx + 1) q d ltac:(lia) H4) H5), (FS U), Hb; reflexivity|].
      exists false. split; [reflexivity|]. split; [discriminate|]. intros [P1 P2]. exfalso. apply (catL_sub x xs L Ls k n s a F R P1) in P2. destruct P2 as [P2 _]. apply (FS U) in P2. exact (high_not_ascii _ d (nth_sub s a k q d H2 H4) H5 P2).
Qed.
Lemma fixed_row ms Ls n : row_of (map sem ms) Ls n -> 1 <= n -> fixed n (catL Ls) (sem (MRow ms (Z.of_nat n))).
Proof.
  intros R N. pose proof (row_len _ _ _ R) as RL. pose proof (row_sharp _ _ _ R) as RS. split; [reflexivity|]. split; [exact N|]. split; [exact RL|]. split; [|split; [|exact RS]].
  - intros s As _. cbn [sem]. unfold right. cbn [sMatch]. unfold row_match. destruct (Z.eqb_spec (Z.of_nat (length (range_str s))) (Z.of_nat n)) as [E|E].
    + destruct (row_all_spec _ _ _ R s 0 As ltac:(lia)) as [b [M H1]]. exists b. split; [exact M|]. rewrite H1. unfold sub. cbn [skipn plus]. split.
      * intros [P1 P2]. destruct (Nat.eq_dec n (length s)) as [->|Ne]; [rewrite firstn_all in P2; exact P2|]. exfalso. destruct is_bytes_dec as [U|U].
        -- destruct (runes_count s n (dom_raw s As) P1 (RS U _ P2)) as [_ Q]. specialize (Q ltac:(lia)). lia.
        -- rewrite range_len in E by (apply dom_ascii; assumption). lia.
      * intros C. pose proof (RL s C) as Ls'. split; [lia|]. rewrite firstn_all2 by lia. exact C.
    + exists false. split; [reflexivity|]. split; [discriminate|]. intros C. exfalso. pose proof (RL s C) as Ls'. apply E. rewrite range_len; [lia|]. destruct is_bytes_dec as [U|U]; [apply (RS U s C)|apply dom_ascii; assumption].
  - intros s As. cbn [sem sIndex]. pose proof (dom_raw s As) as Ar. destruct (starts_inside s Ar) as [IN SO].
    assert (AL : forall j, catL Ls (sub s j n) -> In j (map fst (range_str s))).
    { intros j C. pose proof (RL _ C) as E. apply sub_short in E. destruct E as [E|E]; [lia|]. destruct is_bytes_dec as [U|U].
      - apply edge_starts; [exact Ar|lia|]. right. right. apply (RS U) in C. unfold sub in C. destruct (skipn j s) as [|c t] eqn:Sk; [apply (f_equal (@length Z)) in Sk; rewrite skipn_length in Sk; cbn in Sk; lia|].
        destruct n as [|n']; [lia|]. cbn [firstn] in C. inversion C as [|? ? B _]; subst. exists c. split; [lia|left]. rewrite <- (firstn_skipn j s), nth_error_app2 by (rewrite firstn_length; lia). rewrite firstn_length, Sk. replace (j - min j (length s)) with 0 by lia. reflexivity.
      - rewrite range_fst by (apply dom_ascii; assumption). apply in_seq. lia. }
    assert (G : forall ps, Forall (fun j => j < length s) ps -> StronglySorted lt ps -> (forall j, catL Ls (sub s j n) -> In j ps) -> match row_index (map sem ms) (Z.of_nat n) s ps with
      | Some (Some (i, segs)) => segs = [n] /\ i + n <= length s /\ catL Ls (sub s i n) /\ forall j, j < i -> ~ catL Ls (sub s j n)
      | Some None => forall j, ~ catL Ls (sub s j n) | None => False end).
    { induction ps as [|a ps IH]; intros Fi So Pre; cbn [row_index].
      - intros j C. exact (Pre j C).
      - inversion Fi; subst. inversion So as [|? ? So' Lt]; subst. rewrite Forall_forall in Lt. rewrite skipn_length. destruct (Z.ltb_spec (Z.of_nat (length s - a)) (Z.of_nat n)) as [H|H].
        + intros j C. assert (a <= j) by (destruct (Pre j C) as [->|I0]; [lia|apply Lt in I0; lia]). apply RL in C. apply sub_short in C. lia.
        + destruct (row_all_spec _ _ _ R (skipn a s) 0 ltac:(auto with asc) ltac:(lia)) as [b [M Hb]]. rewrite M. rewrite sub_skipn, Nat.add_0_r, skipn_length in Hb. destruct b.
          * split; [f_equal; lia|]. split; [lia|]. split; [apply Hb; reflexivity|]. intros j Hj C. destruct (Pre j C) as [->|I0]; [lia|apply Lt in I0; lia].
          * apply IH; [assumption|exact So'|]. intros j C. destruct (Pre j C) as [<-|I0]; [|exact I0]. assert (false = true) by (apply Hb; split; [lia|exact C]). discriminate. }
    apply G; assumption.
Qed.

(** ** AnyOf *)
Definition unionL (Ls : list lang) : lang := fun s => exists L, In L Ls /\ L s.
Lemma any_match_right xs Ls s : Forall2 (fun x L => right x L s) xs Ls -> exists b, any_match xs s = Some b /\ (b = true <-> unionL Ls s).
Proof.
  induction 1 as [|x L xs Ls R F IH]; cbn [any_match].
  - exists false. split; [reflexivity|]. split; [discriminate|]. intros [L [[] _]].
  - destruct R as [b [M Hb]]. rewrite M. destruct IH as [b' [M' Hb']]. destruct b.
    + exists true. split; [reflexivity|]. split; [|reflexivity]. intros _. exists L. split; [left; reflexivity|apply Hb; reflexivity].
    + exists b'. split; [exact M'|]. rewrite Hb'. split.
      * intros [L' [I D]]. exists L'. split; [right; exact I|exact D].
      * intros [L' [[<-|I] D]]; [apply Hb in D; discriminate|]. exists L'. auto.
Qed.
Lemma any_len_fixed k : forall xs, xs <> [] -> Forall (fun x => sLen x = Z.of_nat k) xs -> any_len no xs = Z.of_nat k.
Proof.
  intros xs N F. destruct F as [|x xs E F]; [contradiction|]. cbn [any_len]. unfold no. rewrite Z.eqb_refl, E. clear N E x.
  induction F as [|x xs E F IH]; cbn [any_len]; [reflexivity|]. destruct (Z.eqb_spec (Z.of_nat k) (-1)); [lia|]. rewrite E. destruct (Z.eqb_spec (Z.of_nat k) (-1)); [lia|]. rewrite Z.eqb_refl. exact IH.
Qed.
Lemma fixed_anyof k ms Ls : ms <> [] -> Forall2 (fun m L => fixed k L (sem m)) ms Ls -> fixed k (unionL Ls) (sem (MAnyOf ms)).
Proof.
  intros N F. assert (K : 1 <= k) by (destruct F as [|m L ms Ls F _]; [contradiction|]; apply F).
  assert (FL : forall s, unionL Ls s -> length s = k). { intros s [L [I D]]. clear N K. induction F as [|m L' ms Ls Fx F IH]; [destruct I|]. destruct I as [<-|I]; [apply Fx, D|apply IH, I]. }
  assert (SH : sharp (unionL Ls)). { intros U s [L [I0 D]]. clear N K FL. induction F as [|m L' ms Ls Fx F IH]; [destruct I0|]. destruct I0 as [<-|I0]; [apply (fixed_sharp _ _ _ Fx U s D)|apply IH, I0]. }
  split; [|split; [exact K|]; split; [exact FL|]; split; [|split; [|exact SH]]].
  - cbn [sem sLen]. apply any_len_fixed; [destruct ms; [contradiction|discriminate]|]. clear N FL SH. induction F as [|m L ms Ls Fx F IH]; constructor; [apply Fx|exact IH].
  - intros s As Ns. cbn [sem]. unfold right. cbn [sMatch]. apply any_match_right. clear N FL SH. induction F as [|m L ms Ls Fx F IH]; constructor; [apply Fx; assumption|exact IH].
  - intros s As. cbn [sem sIndex].
    set (good := fun (U : lang) (r : IR) => match r with Some (i, segs) => segs = [k] /\ i + k <= length s /\ U (sub s i k) /\ (forall j, j < i -> ~ U (sub s j k)) | None => forall j, ~ U (sub s j k) end).
    assert (G : forall (U : lang) acc, good U acc -> exists r, any_index (map sem ms) s acc = Some r /\ good (fun t => U t \/ unionL Ls t) r).
    { clear N FL SH. induction F as [|m L ms Ls Fx F IH]; intros U acc HU; cbn [map any_index].
      - exists acc. split; [reflexivity|]. assert (X : forall t, U t <-> U t \/ unionL [] t) by (intros t; split; [auto|intros [?|[L [[] _]]]; assumption]).
        destruct acc as [[i segs]|]; cbn in *; [|intros j C; apply X in C; exact (HU j C)]. destruct HU as [A [B [C D]]]. split; [exact A|]. split; [exact B|]. split; [left; exact C|]. intros j Hj E. apply X in E. exact (D j Hj E).
      - assert (FI : match sIndex (sem m) s with Some r => good L r | None => False end).
        { destruct Fx as [_ [_ [_ [_ [Fi _]]]]]. specialize (Fi s As). destruct (sIndex (sem m) s) as [[[i segs]|]|]; exact Fi. }
        destruct (sIndex (sem m) s) as [r|]; [|contradiction].
        assert (X : forall acc', good (fun t => U t \/ L t) acc' -> exists r, any_index (map sem ms) s acc' = Some r /\ good (fun t => U t \/ unionL (L :: Ls) t) r).
        { intros acc' Ha. destruct (IH _ acc' Ha) as [r' [Er Hr]]. exists r'. split; [exact Er|].
          assert (Y : forall t, ((U t \/ L t) \/ unionL Ls t) <-> (U t \/ unionL (L :: Ls) t)).
          { intros t. split; [intros [[?|?]|[L' [I D]]]; [auto|right; exists L; split; [left; reflexivity|assumption]|right; exists L'; split; [right; exact I|exact D]]|].
            intros [?|[L' [[<-|I] D]]]; [auto|auto|]. right. exists L'. auto. }
          destruct r' as [[i segs]|]; cbn in *; [|intros j C; apply Y in C; exact (Hr j C)]. destruct Hr as [A [B [C D]]]. split; [exact A|]. split; [exact B|]. split; [apply Y, C|]. intros j Hj E. apply Y in E. exact (D j Hj E). }
        destruct r as [[i segs]|].
        + destruct FI as [-> [B [C D]]]. destruct acc as [[i0 segs0]|].
          * destruct HU as [-> [B0 [C0 D0]]]. destruct (Nat.ltb_spec i i0) as [H1|H1]; [|destruct (Nat.ltb_spec i0 i) as [H2|H2]]; apply X.
            -- split; [reflexivity|]. split; [exact B|]. split; [right; exact C|]. intros j Hj [E|E]; [exact (D0 j ltac:(lia) E)|exact (D j Hj E)].
            -- split; [reflexivity|]. split; [exact B0|]. split; [left; exact C0|]. intros j Hj [E|E]; [exact (D0 j Hj E)|exact (D j ltac:(lia) E)].
            -- assert (i = i0) by lia. subst i0. split; [unfold appendMerge; cbn; rewrite Nat.eqb_refl; reflexivity|]. split; [exact B|]. split; [right; exact C|]. intros j Hj [E|E]; [exact (D0 j Hj E)|exact (D j Hj E)].
          * apply X. split; [reflexivity|]. split; [exact B|]. split; [right; exact C|]. intros j Hj [E|E]; [exact (HU j E)|exact (D j Hj E)].
        + apply X. destruct acc as [[i0 segs0]|]; cbn in *.
          * destruct HU as [-> [B0 [C0 D0]]]. split; [reflexivity|]. split; [exact B0|]. split; [left; exact C0|]. intros j Hj [E|E]; [exact (D0 j Hj E)|exact (FI j E)].
          * intros j [E|E]; [exact (HU j E)|exact (FI j E)]. }
    destruct (G (fun _ => False) None) as [r [Er Hr]]; [intros j []|]. rewrite Er.
    assert (Y : forall t, (False \/ unionL Ls t) <-> unionL Ls t) by tauto.
    destruct r as [[i segs]|]; cbn in *; [|intros j C; apply (Hr j); right; exact C]. destruct Hr as [A [B [C D]]]. split; [exact A|]. split; [exact B|]. split; [apply Y, C|]. intros j Hj E. apply (D j Hj). right. exact E.
Qed.
Lemma merge_in : forall n t s, length t + length s <= n -> forall z, In z (merge t s) <-> In z t \/ In z s.
Proof.
  induction n as [|n IH]; intros t s H z.
  - destruct t, s; cbn in H; try lia. cbn. tauto.
  - destruct t as [|x t]; [destruct s; cbn; tauto|]. destruct s as [|y s]; [cbn; tauto|].
    assert (E : merge (x :: t) (y :: s) = if x =? y then x :: merge t s else if x <? y then x :: merge t (y :: s) else y :: merge (x :: t) s) by reflexivity. rewrite E. cbn [length] in H.
    destruct (Nat.eqb_spec x y) as [->|_]; [cbn [In]; rewrite IH by lia; tauto|]. destruct (x <? y); cbn [In]; rewrite IH by (cbn [length]; lia); cbn [In]; tauto.
Qed.
Lemma pref_anyof ms Ls : Forall2 (fun m L => pref L (sem m)) ms Ls -> pref (unionL Ls) (sem (MAnyOf ms)).
Proof.
  intros F. assert (LO : loose (unionL Ls)).
  { intros U x b y bs Hb [L [I0 D]] Fb. exists L. split; [exact I0|]. clear - F I0 D Hb Fb U. induction F as [|m L' ms Ls Fx F IH]; [destruct I0|]. destruct I0 as [<-|I0]; [exact (proj2 Fx U x b y bs Hb D Fb)|exact (IH I0)]. }
  split; [|exact LO]. clear LO. intros s As. cbn [sem sIndex].
  set (good := fun (U : lang) (r : IR) => match r with
     | Some (i, segs) => i <= length s /\ (i = 0 -> forall j, (In j segs -> j <= length s /\ U (firstn j s)) /\ (j <= length s -> U (firstn j s) -> (is_bytes -> edge s j) -> In j segs)) /\ (0 < i -> forall j, j <= length s -> ~ U (firstn j s))
     | None => forall j, j <= length s -> ~ U (firstn j s) end).
  assert (ext : forall (U V : lang) r, (forall t, U t <-> V t) -> good U r -> good V r).
  { intros U V r X H. destruct r as [[i segs]|]; cbn in *; [|intros j Lj C; apply X in C; exact (H j Lj C)]. destruct H as [A [B C]]. split; [exact A|]. split; [intros Z j; rewrite <- X; apply B, Z|]. intros P j Lj D. apply X in D. exact (C P j Lj D). }
  assert (G : forall (U : lang) acc, good U acc -> exists r, any_index (map sem ms) s acc = Some r /\ good (fun t => U t \/ unionL Ls t) r).
  { induction F as [|m L ms Ls Fx F IH]; intros U acc HU; cbn [map any_index].
    - exists acc. split; [reflexivity|]. apply (ext U); [|exact HU]. intros t. split; [auto|intros [?|[L [[] _]]]; assumption].
    - assert (FI : match sIndex (sem m) s with Some r => good L r | None => False end).
      { destruct Fx as [Fx _]. specialize (Fx s As). destruct (sIndex (sem m) s) as [[[i segs]|]|]; exact Fx. }
      destruct (sIndex (sem m) s) as [r|]; [|contradiction].
      assert (X : forall acc', good (fun t => U t \/ L t) acc' -> exists r, any_index (map sem ms) s acc' = Some r /\ good (fun t => U t \/ unionL (L :: Ls) t) r).
      { intros acc' Ha. destruct (IH _ acc' Ha) as [r' [Er Hr]]. exists r'. split; [exact Er|]. revert Hr. apply ext.
        intros t. split; [intros [[?|?]|[L' [I D]]]; [auto|right; exists L; split; [left; reflexivity|assumption]|right; exists L'; split; [right; exact I|exact D]]|].
        intros [?|[L' [[<-|I] D]]]; [auto|auto|]. right. exists L'. auto. }
      destruct r as [[i segs]|].
      + destruct FI as [B [C D]]. destruct acc as [[i0 segs0]|].
        * destruct HU as [B0 [C0 D0]]. destruct (Nat.ltb_spec i i0) as [H1|H1]; [|destruct (Nat.ltb_spec i0 i) as [H2|H2]]; apply X.
          -- split; [exact B|]. split.
             ++ intros Z j. destruct (C Z j) as [C1 C2]. split; [intros G; apply C1 in G; tauto|]. intros Lj [E|E] Ed; [exfalso; apply (D0 ltac:(lia) j Lj E)|auto].
             ++ intros P j Lj [E|E]; [apply (D0 ltac:(lia) j Lj E)|apply (D P j Lj E)].
          -- split; [exact B0|]. split.
             ++ intros Z j. destruct (C0 Z j) as [C1 C2]. split; [intros G; apply C1 in G; tauto|]. intros Lj [E|E] Ed; [auto|exfalso; apply (D ltac:(lia) j Lj E)].
             ++ intros P j Lj [E|E]; [apply (D0 P j Lj E)|apply (D ltac:(lia) j Lj E)].
          -- assert (i = i0) by lia. subst i0. split; [exact B|]. split.
             ++ intros Z j. unfold appendMerge. rewrite (merge_in _ _ _ (le_n _)). destruct (C Z j) as [C1 C2], (C0 Z j) as [C3 C4]. split; [intros [G|G]; [apply C3 in G|apply C1 in G]; tauto|]. intros Lj [E|E] Ed; auto.
             ++ intros P j Lj [E|E]; [apply (D0 P j Lj E)|apply (D P j Lj E)].
        * apply X. split; [exact B|]. split.
          -- intros Z j. destruct (C Z j) as [C1 C2]. split; [intros G; apply C1 in G; tauto|]. intros Lj [E|E] Ed; [exfalso; apply (HU j Lj E)|auto].
          -- intros P j Lj [E|E]; [apply (HU j Lj E)|apply (D P j Lj E)].
      + apply X. destruct acc as [[i0 segs0]|]; cbn in *.
        * destruct HU as [B0 [C0 D0]]. split; [exact B0|]. split.
          -- intros Z j. destruct (C0 Z j) as [C1 C2]. split; [intros G; apply C1 in G; tauto|]. intros Lj [E|E] Ed; [auto|exfalso; apply (FI j Lj E)].
          -- intros P j Lj [E|E]; [apply (D0 P j Lj E)|apply (FI j Lj E)].
        * intros j Lj [E|E]; [exact (HU j Lj E)|exact (FI j Lj E)]. }
  destruct (G (fun _ => False) None) as [r [Er Hr]]; [intros j _ []|]. rewrite Er. apply (ext _ (unionL Ls)) in Hr; [|intros t; tauto]. destruct r as [[i segs]|]; exact Hr.
Qed.

(** ** BTree *)
(** The part left or right of a BTree's value, with its length as the BTree keeps it. *)
Definition side (o : option Sem) (L : lang) (n : Z) : Prop :=
  match o with None => n = 0%Z /\ (forall s, L s <-> s = []) | Some x => n = sLen x /\ elem L x end.
Lemma side_right o L n s : side o L n -> dom s -> (n <= Z.of_nat (length s))%Z -> exists b, opt_match o s = Some b /\ (b = true <-> L s).
Proof.
  destruct o as [x|]; cbn [side opt_match].
  - intros [-> [[k [A [B [_ [C _]]]]]|[_ [C _]]]] As H; [|apply C, As]. apply C; [exact As|]. rewrite A in H. intros ->. cbn in H. lia.
  - intros [_ E] _ _. exists (eqs s []). split; [reflexivity|]. rewrite eqs_iff. symmetry. apply E.
Qed.
Lemma side_len o L n s : side o L n -> (0 <= n)%Z -> L s -> Z.of_nat (length s) = n.
Proof.
  destruct o as [x|]; cbn [side].
  - intros [-> [[k [A [B [C _]]]]|[C _]]] H D; [rewrite (C s D); lia|lia].
  - intros [-> E] _ D. apply E in D. subst. reflexivity.
Qed.
Lemma ascii_nth s i : ascii s -> i < length s -> exists c, skipn i s = c :: skipn (S i) s /\ (0 <= c < 128)%Z.
Proof.
  intros A. revert i. induction A as [|c s B A IH]; intros i H; [cbn in H; lia|]. destruct i as [|i]; [exists c; split; [reflexivity|exact B]|]. cbn [skipn]. destruct (IH i) as [d [E D]]; [cbn in H; lia|]. exists d. rewrite E. auto.
Qed.
(** Where a matcher of fixed length has found something there is an ASCII character. *)
Lemma first_char s i k (L : lang) : dom s -> sharp L -> 1 <= k -> i + k <= length s -> L (sub s i k) -> exists c, skipn i s = c :: skipn (S i) s /\ (0 <= c < 128)%Z.
Proof.
  intros As FS K H D. destruct is_bytes_dec as [U|U]; [|apply ascii_nth; [apply dom_ascii; assumption|lia]]. apply (FS U) in D. unfold sub in D. destruct (skipn i s) as [|c t] eqn:E; [apply (f_equal (@length Z)) in E; rewrite skipn_length in E; cbn in E; lia|].
  destruct k as [|k]; [lia|]. cbn [firstn] in D. inversion D; subst. exists c. split; [|assumption]. f_equal. replace (S i) with (i + 1) by lia. rewrite <- skipn_add, E. reflexivity.
Qed.
Lemma rest_skipn (s : str) n : (if length s <=? n then [] else skipn n s) = skipn n s.
Proof. destruct (Nat.leb_spec (length s) n); [symmetry; apply skipn_all2; lia|reflexivity]. Qed.
Lemma btree_loop_fixed v l r k Lv Ll Lr ll rl s : fixed k Lv v -> side l Ll ll -> side r Lr rl -> dom s ->
  forall fuel o (lim : Z), 1 <= fuel -> (length s < fuel + o) -> (ll <= Z.of_nat o)%Z -> (lim <= Z.of_nat (length s))%Z -> (lim <= Z.of_nat (length s) - rl)%Z ->
  exists b, btree_loop fuel v l r s (Z.of_nat o) lim = Some b /\
    (b = true <-> exists p, o <= p /\ (Z.of_nat (p + k) <= lim)%Z /\ Ll (firstn p s) /\ Lv (sub s p k) /\ Lr (skipn (p + k) s)).
Proof.
  intros Fv Sl Sr As. pose proof Fv as [_ [K [FC [_ [FI FS]]]]]. induction fuel as [|f IH]; intros o lim Hf1 Hf Hl Hn Hr; [lia|]. cbn [btree_loop].
  destruct (Z.ltb_spec (Z.of_nat o) lim) as [H|H].
  2: { exists false. split; [reflexivity|]. split; [discriminate|]. intros [p [A [B _]]]. lia. }
  rewrite Nat2Z.id. rewrite slice_some by lia. set (n := Z.to_nat lim - o) in *. set (mid := sub s o n).
  assert (Am : dom mid) by (apply dom_sub, As). assert (Lm : length mid = n) by (apply sub_len; unfold n; lia).
  assert (Sm : forall j, j + k <= n -> sub mid j k = sub s (o + j) k) by (intros j Hj; unfold mid; unfold sub at 2; rewrite sub_firstn by lia; apply sub_skipn).
  specialize (FI mid Am). destruct (sIndex v mid) as [[[i segs]|]|]; [| |contradiction].
  - destruct FI as [-> [F2 [F3 F4]]]. rewrite Lm in F2. rewrite Sm in F3 by lia.
    destruct (Nat.ltb_spec (length s) (o + i)); [lia|].
    assert (Lf : length (firstn (o + i) s) = o + i) by (rewrite firstn_length; lia).
    destruct (side_right l Ll ll (firstn (o + i) s) Sl ltac:(auto with asc) ltac:(lia)) as [bl [-> Hbl]].
    assert (Lsk : length (skipn (o + i + k) s) = length s - (o + i + k)) by apply skipn_length.
    destruct (side_right r Lr rl (skipn (o + i + k) s) Sr ltac:(auto with asc) ltac:(lia)) as [br [Mr Hbr]].
    assert (T : (if bl then try_right r s (o + i) (rev [k]) else Some false) = Some (bl && br)).
    { destruct bl; [|reflexivity]. cbn [rev app try_right]. rewrite rest_skipn, Mr. destruct br; reflexivity. }
    rewrite T. destruct (bl && br) eqn:BB.
    + exists true. split; [reflexivity|]. split; [|reflexivity]. intros _. apply andb_true_iff in BB. destruct BB as [-> ->]. exists (o + i). split; [lia|]. split; [lia|]. split; [apply Hbl; reflexivity|]. split; [exact F3|apply Hbr; reflexivity].
    + destruct (first_char s (o + i) k Lv As FS ltac:(lia) ltac:(lia) F3) as [c [Ec Bc]]. rewrite Ec, decode_ascii by exact Bc. cbn [snd].
      replace (Z.of_nat o + Z.of_nat (i + 1))%Z with (Z.of_nat (o + i + 1)) by lia.
      destruct (IH (o + i + 1) lim ltac:(lia) ltac:(lia) ltac:(lia) Hn Hr) as [b [Eb Hb]]. exists b. split; [exact Eb|]. rewrite Hb. split.
      * intros [p [A B]]. exists p. split; [lia|exact B].
      * intros [p [A [B [C [D E]]]]]. exists p. split; [|auto]. destruct (Nat.le_gt_cases (o + i + 1) p) as [G|G]; [exact G|]. exfalso.
        destruct (Nat.eq_dec p (o + i)) as [->|Np].
        -- apply Hbl in C. apply Hbr in E. rewrite C, E in BB. discriminate.
        -- apply (F4 (p - o)); [lia|]. rewrite Sm by lia. replace (o + (p - o)) with p by lia. exact D.
  - exists false. split; [reflexivity|]. split; [discriminate|]. intros [p [A [B [C [D E]]]]]. exfalso. apply (FI (p - o)). rewrite Sm by lia. replace (o + (p - o)) with p by lia. exact D.
Qed.
(** A BTree around a value of fixed length matches the concatenation of its parts. *)
Lemma btree_fixed v l r k Lv Ll Lr ll rl len s : fixed k Lv v -> side l Ll ll -> side r Lr rl -> dom s ->
  (len = -1 \/ (0 <= ll /\ 0 <= rl /\ len = ll + Z.of_nat k + rl))%Z ->
  exists b, btree_match v l r ll rl len s = Some b /\ (b = true <-> catL [Ll; Lv; Lr] s).
Proof.
  intros Fv Sl Sr As Hlen. pose proof Fv as [_ [K [FC _]]].
  assert (CA : catL [Ll; Lv; Lr] s <-> exists p, p + k <= length s /\ Ll (firstn p s) /\ Lv (sub s p k) /\ Lr (skipn (p + k) s)).
  { cbn [catL]. split.
    - intros [u [v0 [-> [A [w [x [-> [B [y [z [-> [C ->]]]]]]]]]]]]. rewrite app_nil_r in *. pose proof (FC w B) as Lw. exists (length u). rewrite !app_length. split; [lia|].
      rewrite firstn_app, firstn_all, Nat.sub_diag, firstn_O, app_nil_r. split; [exact A|]. subst k. split; [rewrite sub_app3; exact B|].
      rewrite <- skipn_add. rewrite skipn_app, skipn_all, Nat.sub_diag. cbn [skipn app]. rewrite skipn_app, skipn_all, Nat.sub_diag. exact C.
    - intros [p [H [A [B C]]]]. exists (firstn p s), (sub s p k ++ skipn (p + k) s). split; [apply split3|]. split; [exact A|].
      exists (sub s p k), (skipn (p + k) s). split; [reflexivity|]. split; [exact B|]. exists (skipn (p + k) s), []. rewrite app_nil_r. auto. }
  unfold btree_match, offset_limit.
  destruct (negb (len =? -1)%Z && (Z.of_nat (length s) <? len)%Z) eqn:G.
  - cbn [btree_loop]. exists false. split; [reflexivity|]. split; [discriminate|]. rewrite CA. intros [p [H [A [B C]]]].
    apply andb_true_iff in G. destruct G as [G1 G2]. apply negb_true_iff, Z.eqb_neq in G1. apply Z.ltb_lt in G2. destruct Hlen as [->|[P1 [P2 ->]]]; [lia|].
    apply (side_len l Ll ll _ Sl P1) in A. apply (side_len r Lr rl _ Sr P2) in C. rewrite firstn_length in A. rewrite skipn_length in C. lia.
  - set (o := Z.to_nat (if (0 <=? ll)%Z then ll else 0%Z)). set (lim := if (0 <=? rl)%Z then (Z.of_nat (length s) - rl)%Z else Z.of_nat (length s)).
    assert (Eo : (if (0 <=? ll)%Z then ll else 0%Z) = Z.of_nat o) by (unfold o; destruct (Z.leb_spec 0 ll); lia). rewrite Eo.
    destruct (btree_loop_fixed v l r k Lv Ll Lr ll rl s Fv Sl Sr As (S (length s)) o lim) as [b [Eb Hb]]; [lia|lia|destruct (Z.leb_spec 0 ll); lia|unfold lim; destruct (Z.leb_spec 0 rl); lia|unfold lim; destruct (Z.leb_spec 0 rl); lia|].
    exists b. split; [exact Eb|]. rewrite Hb, CA. split.
    + intros [p [A [B C]]]. exists p. split; [|exact C]. unfold lim in B. destruct (Z.leb_spec 0 rl); lia.
    + intros [p [H [A [B C]]]]. exists p. split; [|split; [|auto]].
      * destruct (Z.leb_spec 0 ll) as [P|P]; [|lia]. apply (side_len l Ll ll _ Sl P) in A. rewrite firstn_length in A. lia.
      * unfold lim. destruct (Z.leb_spec 0 rl) as [P|P]; [|lia]. apply (side_len r Lr rl _ Sr P) in C. rewrite skipn_length in C. lia.
Qed.
(** A split of s can be moved to an edge. *)
Lemma high_tail (s : str) : exists x h, s = x ++ h /\ Forall high h /\ (x = [] \/ exists y c, x = y ++ [c] /\ (c < 128)%Z).
Proof.
  induction s as [|c s [x [h [-> [F H]]]]]; [exists [], []; repeat split; auto|]. destruct (Z.lt_ge_cases c 128) as [L|G].
  - exists (c :: x), h. split; [reflexivity|]. split; [exact F|]. right. destruct H as [->|[y [d [-> D]]]]; [exists [], c; auto|exists (c :: y), d; auto].
  - destruct H as [->|[y [d [-> D]]]]; [exists [], (c :: h); repeat split; [constructor; assumption|left; reflexivity]|]. exists (c :: y ++ [d]), h. split; [reflexivity|]. split; [exact F|]. right. exists (c :: y), d. auto.
Qed.
Lemma to_edge s j (Lv Lr : lang) : loose Lv -> loose Lr -> j <= length s -> Lv (firstn j s) -> Lr (skipn j s) ->
  exists j', j' <= length s /\ Lv (firstn j' s) /\ Lr (skipn j' s) /\ (is_bytes -> edge s j').
Proof.
  intros LV LR Lj Dv Dr. destruct is_bytes_dec as [U|U]; [|exists j; repeat split; try assumption; contradiction].
  destruct (skipn j s) as [|c t] eqn:Sk.
  - exists j. rewrite Sk. repeat split; try assumption. intros _. right. left. apply (f_equal (@length Z)) in Sk. rewrite skipn_length in Sk. cbn in Sk. lia.
  - destruct (Z.lt_ge_cases c 128) as [L|G].
    + exists j. rewrite Sk. repeat split; try assumption. intros _. right. right. exists c. split; [exact L|left]. rewrite <- (firstn_skipn j s), nth_error_app2 by (rewrite firstn_length; lia). rewrite firstn_length, Sk. replace (j - min j (length s)) with 0 by lia. reflexivity.
    + destruct (high_tail (firstn j s)) as [x [h [E [F H]]]]. assert (Es : s = x ++ h ++ c :: t) by (rewrite <- Sk, app_assoc, <- E; symmetry; apply firstn_skipn).
      exists (length x). assert (Ef : firstn (length x) s = x) by (rewrite Es, firstn_app, firstn_all, Nat.sub_diag, firstn_O, app_nil_r; reflexivity). assert (Ek : skipn (length x) s = h ++ c :: t) by (rewrite Es, skipn_app, skipn_all, Nat.sub_diag; reflexivity).
      rewrite Ef, Ek. split; [rewrite Es, app_length; lia|]. split; [|split].
      * rewrite E in Dv. clear - Dv F LV U. induction F as [|b h Hb F IH]; [rewrite app_nil_r in Dv; exact Dv|]. apply IH. exact (LV U x b h [] Hb Dv (Forall_nil _)).
      * replace (h ++ c :: t) with ([] ++ (h ++ [c]) ++ t) by (rewrite <- app_assoc; reflexivity). apply (LR U [] c t (h ++ [c]) G Dr). apply Forall_app. split; [exact F|]. constructor; [exact G|constructor].
      * intros _. destruct H as [->|[y [d [-> D]]]]; [left; reflexivity|]. right. right. exists d. split; [exact D|right]. rewrite Es, <- !app_assoc, app_length, nth_error_app2 by (cbn; lia). cbn [length]. replace (length y + 1 - 1 - length y) with 0 by lia. reflexivity.
Qed.
(** A BTree around a value without a known length, at the beginning: the rest must have no known length either, and not both may be empty. *)
Lemma btree_pref v r Lv Lr s : pref Lv v -> free Lr r -> dom s -> ~ (Lv [] /\ Lr []) ->
  exists b, btree_match v None (Some r) 0 (-1) (-1) s = Some b /\ (b = true <-> catL [Lv; Lr] s).
Proof.
  intros [P LV] [_ [Fr LR]] As NN. unfold btree_match, offset_limit. change (negb (-1 =? -1)%Z) with false. change (0 <=? 0)%Z with true. change (0 <=? -1)%Z with false. cbv iota beta delta [andb].
  assert (NO : forall fuel o, 1 <= fuel -> length s < fuel + o -> 1 <= o -> btree_loop fuel v None (Some r) s (Z.of_nat o) (Z.of_nat (length s)) = Some false).
  { induction fuel as [|f IH]; intros o Hf1 Hf Ho; [lia|]. cbn [btree_loop]. destruct (Z.ltb_spec (Z.of_nat o) (Z.of_nat (length s))) as [H|H]; [|reflexivity].
    rewrite !Nat2Z.id. rewrite slice_some by lia. specialize (P (sub s o (length s - o)) (dom_sub _ _ _ As)).
    assert (Lm : length (sub s o (length s - o)) = length s - o) by (apply sub_len; lia).
    destruct (sIndex v _) as [[[i segs]|]|]; [|reflexivity|contradiction]. destruct P as [P _]. rewrite Lm in P.
    destruct (Nat.ltb_spec (length s) (o + i)); [lia|]. cbn [opt_match].
    assert (E : eqs (firstn (o + i) s) [] = false). { apply not_true_iff_false. rewrite eqs_iff. intros E. apply (f_equal (@length Z)) in E. rewrite firstn_length in E. cbn in E. lia. }
    rewrite E. destruct (Nat.eq_dec (o + i) (length s)) as [Q|Q].
    - rewrite Q, skipn_all. cbn [decode snd]. rewrite Nat.add_0_r. replace (Z.of_nat o + Z.of_nat i)%Z with (Z.of_nat (o + i)) by lia. rewrite Q.
      destruct f as [|f]; [lia|]. cbn [btree_loop]. destruct (Z.ltb_spec (Z.of_nat (length s)) (Z.of_nat (length s))); [lia|reflexivity].
    - assert (W : 1 <= snd (decode (skipn (o + i) s))) by (apply decode_width; intros Q0; apply (f_equal (@length Z)) in Q0; rewrite skipn_length in Q0; cbn in Q0; lia). set (w := snd (decode (skipn (o + i) s))) in *. clearbody w.
      replace (Z.of_nat o + Z.of_nat (i + w))%Z with (Z.of_nat (o + i + w)) by lia. apply IH; lia. }
  assert (CA : catL [Lv; Lr] s <-> exists j, j <= length s /\ Lv (firstn j s) /\ Lr (skipn j s)).
  { cbn [catL]. split.
    - intros [u [x [-> [A [y [z [-> [C ->]]]]]]]]. rewrite app_nil_r in *. exists (length u). rewrite app_length. split; [lia|].
      rewrite firstn_app, firstn_all, Nat.sub_diag, firstn_O, app_nil_r. split; [exact A|]. rewrite skipn_app, skipn_all, Nat.sub_diag. exact C.
    - intros [p [H [A C]]]. exists (firstn p s), (skipn p s). split; [symmetry; apply firstn_skipn|]. split; [exact A|]. exists (skipn p s), []. rewrite app_nil_r. auto. }
  destruct s as [|c0 s0].
  { exists false. split; [reflexivity|]. split; [discriminate|]. rewrite CA. intros [j [Lj [A B]]]. cbn in Lj. assert (j = 0) by lia. subst j. exfalso. apply NN. auto. }
  set (s := c0 :: s0) in *. assert (L1 : 1 <= length s) by (cbn; lia). clearbody s. clear c0 s0.
  change 0%Z with (Z.of_nat 0). cbn [btree_loop]. destruct (Z.ltb_spec (Z.of_nat 0) (Z.of_nat (length s))) as [_|H]; [|lia].
  rewrite !Nat2Z.id, slice_all. pose proof (P s As) as Ps. destruct (sIndex v s) as [[[i segs]|]|]; [| |contradiction].
  - destruct Ps as [P1 [P2 P3]]. cbn [plus]. destruct (Nat.ltb_spec (length s) i); [lia|]. cbn [opt_match].
    assert (NX : btree_loop (length s) v None (Some r) s (Z.of_nat 0 + Z.of_nat (i + snd (decode (skipn i s)))) (Z.of_nat (length s)) = Some false).
    { destruct (Nat.eq_dec i (length s)) as [Q|Q].
      - rewrite Q, skipn_all. cbn [decode snd]. rewrite Nat.add_0_r. replace (Z.of_nat 0 + Z.of_nat (length s))%Z with (Z.of_nat (length s)) by lia.
        destruct (length s) as [|n]; [lia|]. cbn [btree_loop]. destruct (Z.ltb_spec (Z.of_nat (S n)) (Z.of_nat (S n))); [lia|reflexivity].
      - assert (W : 1 <= snd (decode (skipn i s))) by (apply decode_width; intros Q0; apply (f_equal (@length Z)) in Q0; rewrite skipn_length in Q0; cbn in Q0; lia). set (w := snd (decode (skipn i s))) in *. clearbody w.
        replace (Z.of_nat 0 + Z.of_nat (i + w))%Z with (Z.of_nat (i + w)) by lia. apply NO; lia. }
    destruct i as [|i].
    + specialize (P2 eq_refl). cbn [firstn]. rewrite eqs_refl.
      assert (T : forall sg, exists b, try_right (Some r) s 0 sg = Some b /\ (b = true <-> exists j, In j sg /\ Lr (skipn j s))).
      { induction sg as [|g sg IH]; cbn [try_right].
        - exists false. split; [reflexivity|]. split; [discriminate|]. intros [j [[] _]].
        - cbn [plus]. rewrite rest_skipn. cbn [opt_match]. destruct (Fr (skipn g s) ltac:(auto with asc)) as [b [-> Hb]]. destruct IH as [b' [-> Hb']]. destruct b.
          + exists true. split; [reflexivity|]. split; [|reflexivity]. intros _. exists g. split; [left; reflexivity|apply Hb; reflexivity].
          + exists b'. split; [reflexivity|]. rewrite Hb'. split; [intros [j [I D]]; exists j; split; [right; exact I|exact D]|]. intros [j [[<-|I] D]]; [apply Hb in D; discriminate|eauto]. }
      destruct (T (rev segs)) as [b [-> Hb]].
      assert (HB : b = true <-> catL [Lv; Lr] s). { rewrite Hb, CA. split.
        - intros [j [D1 D2]]. apply in_rev in D1. exists j. destruct (P2 j) as [P4 _]. apply P4 in D1. tauto.
        - intros [j [D1 [D2 D3]]]. destruct (to_edge s j Lv Lr LV LR D1 D2 D3) as [j' [E1 [E2 [E3 E4]]]]. exists j'. split; [|exact E3]. apply in_rev. rewrite rev_involutive. exact (proj2 (P2 j') E1 E2 E4). }
      destruct b; [exists true; auto|]. rewrite NX. exists false. auto.
    + assert (E : eqs (firstn (S i) s) [] = false). { apply not_true_iff_false. rewrite eqs_iff. intros E. apply (f_equal (@length Z)) in E. rewrite firstn_length in E. cbn [length] in E. lia. }
      rewrite E, NX. exists false. split; [reflexivity|]. split; [discriminate|]. rewrite CA. intros [j [Lj [A _]]]. exfalso. apply (P3 ltac:(lia) j Lj A).
  - exists false. split; [reflexivity|]. split; [discriminate|]. rewrite CA. intros [j [Lj [A _]]]. exfalso. apply (Ps j Lj A).
Qed.
End Matchers.
