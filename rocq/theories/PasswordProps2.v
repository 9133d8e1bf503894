(** * C12: passwords from sets of any bytes. *)
From Coq Require Import ZArith List Bool Lia Permutation.
From Verif Require Import Utf8 PasswordModel PasswordProofs PasswordProps.
Import ListNotations.
Open Scope Z_scope.

Lemma string_of_byte_encode b : 0 <= b < 256 -> string_of_byte b = encode b.
Proof.
  intros B. unfold string_of_byte, encode. replace ((b <? 0) || (b >? 1114111) || surrogate b)%bool with false.
  2: { symmetry. unfold surrogate, in_range. rewrite Z.gtb_ltb. destruct (Z.ltb_spec b 0); [lia|]. destruct (Z.ltb_spec 1114111 b); [lia|]. destruct (Z.leb_spec 55296 b); [lia|]. reflexivity. }
  destruct (Z.ltb_spec b 128); [reflexivity|]. destruct (Z.ltb_spec b 2048); [reflexivity|lia].
Qed.
(** Whatever bytes the sets hold, the password consists of the bytes of the UTF-8 text of the characters with those numbers (U+0000 to U+00FF): as many as
    asked for from each set; but the bytes of different characters may be mixed, so the password need not be UTF-8. *)
Theorem C12_any_bytes fuel g rng len nd ns nu ar w rest : bytes rng -> gen_sets bytes g -> Generate fuel g rng len nd ns nu ar = Ok w rest ->
  exists ls ds ss, Permutation w (utf8 (ls ++ ds ++ ss))
    /\ Z.of_nat (length ls) = len - nd - ns /\ Z.of_nat (length ds) = Z.max 0 nd /\ Z.of_nat (length ss) = Z.max 0 ns
    /\ Forall (fun b => In b (lowerLetters g) \/ (nu = false /\ In b (upperLetters g))) ls /\ Forall (fun b => In b (digits g)) ds /\ Forall (fun b => In b (symbols g)) ss.
Proof.
  intros B A E. destruct (Generate_ok _ _ _ _ _ _ _ _ _ _ B E) as [ls [ds [ss [P [L1 [L2 [L3 [I1 [I2 [I3 _]]]]]]]]]]. exists ls, ds, ss.
  assert (I1' : Forall (fun b => In b (lowerLetters g) \/ (nu = false /\ In b (upperLetters g))) ls).
  { revert I1. apply Forall_impl. intros b. unfold letters. destruct nu; [auto|]. intros I. apply in_app_or in I. tauto. }
  split; [|tauto]. replace (utf8 (ls ++ ds ++ ss)) with (concat (map string_of_byte (ls ++ ds ++ ss))); [exact P|]. unfold utf8. f_equal. apply map_ext_in. intros b I. apply string_of_byte_encode.
  destruct A as [A1 [A2 [A3 A4]]]. unfold bytes in *. rewrite Forall_forall in *. apply in_app_or in I. destruct I as [I|I]; [destruct (I1' b I) as [K|[_ K]]; auto|]. apply in_app_or in I. destruct I as [I|I]; auto.
Qed.
Print Assumptions C12_any_bytes.
(** Non-vacuity: sets of bytes above 127, and a password that is no UTF-8. *)
Example C12_case_any_bytes : exists w rest, gen_sets bytes {| lowerLetters := [195; 169]; upperLetters := [195; 137]; digits := [195; 160]; symbols := [194; 163] |}
  /\ Generate 9 {| lowerLetters := [195; 169]; upperLetters := [195; 137]; digits := [195; 160]; symbols := [194; 163] |} [1;0;1;1;0] 2 0 0 true true = Ok w rest
  /\ w = [194; 195; 131; 169] /\ Permutation w (utf8 [195; 169]) /\ decode w = (65533, 1%nat).
Proof.
  eexists. eexists. split; [repeat split; repeat constructor; lia|]. split; [vm_compute; reflexivity|]. split; [reflexivity|]. split; [|vm_compute; reflexivity].
  change (Permutation [194; 195; 131; 169] [195; 131; 194; 169]). apply (Permutation_trans (perm_swap _ _ _)). apply perm_skip. apply perm_swap.
Qed.
