(** * Theorems C42-C44: quoting and parsing glob patterns. *)
From Coq Require Import String.
From Coq Require Import ZArith Arith List Bool Lia.
From Verif Require Import Utf8 GoStr GlobLex GlobMatch GlobCompile GlobSpec GlobParse.
Import ListNotations.
Open Scope nat_scope.

Lemma QuoteMeta_app a b : QuoteMeta (a ++ b) = QuoteMeta a ++ QuoteMeta b.
Proof. induction a as [|c a IH]; [reflexivity|]. cbn [app QuoteMeta]. rewrite IH. destruct (Special c); reflexivity. Qed.
Lemma Special_iff c : Special c = true <-> In c [cAny; cSingle; cEscape; cRangeOpen; cRangeClose; cTermsOpen; cTermsClose].
Proof.
  unfold Special. rewrite existsb_exists. split.
  - intros [x [I E]]. apply Z.eqb_eq in E. subst. exact I.
  - intros I. exists c. split; [exact I|apply Z.eqb_refl].
Qed.
Lemma Special_high c : (128 <= c)%Z -> Special c = false.
Proof.
  intros H. destruct (Special c) eqn:E; [|reflexivity]. apply Special_iff in E.
  cbn in E. unfold cAny, cSingle, cEscape, cRangeOpen, cRangeClose, cTermsOpen, cTermsClose in E. lia.
Qed.
Lemma QuoteMeta_high s : Forall (fun b => (128 <= b)%Z) s -> QuoteMeta s = s.
Proof. induction 1 as [|b s H _ IH]; [reflexivity|]. cbn [QuoteMeta]. rewrite Special_high by exact H. rewrite IH. reflexivity. Qed.
Lemma encode_cases c : valid_rune c -> ((c < 128)%Z /\ encode c = [c]) \/ ((128 <= c)%Z /\ Forall (fun b => (128 <= b)%Z) (encode c)).
Proof.
  intros V. pose proof (decode_encode c [] V) as D. rewrite app_nil_r in D. destruct V as [B S0]. destruct (Z_lt_ge_dec c 128) as [L|G].
  - left. split; [exact L|]. unfold encode. rewrite S0. rewrite (proj2 (Z.ltb_ge c 0)) by lia. rewrite Z.gtb_ltb, (proj2 (Z.ltb_ge 1114111 c)) by lia. cbn [orb].
    rewrite (proj2 (Z.ltb_lt c 128)) by exact L. reflexivity.
  - right. split; [lia|]. pose proof (encode_nonempty c) as NE. destruct (encode c) as [|b0 e] eqn:E; [contradiction|].
    destruct (Z_lt_ge_dec b0 128) as [L0|G0].
    + unfold decode in D. rewrite (proj2 (Z.ltb_lt b0 128)) in D by exact L0. injection D as -> _. lia.
    + pose proof (decode_high b0 e ltac:(lia)) as H. rewrite D in H. destruct H as [_ H]. rewrite firstn_all in H. exact H.
Qed.
Lemma QuoteMeta_writes cs : Forall writable cs -> writes_text (special_in false) cs (QuoteMeta (utf8 cs)).
Proof.
  induction 1 as [|c cs W _ IH]; [constructor|]. unfold utf8. cbn [map concat]. rewrite QuoteMeta_app. fold (utf8 cs).
  destruct (encode_cases c (proj1 W)) as [[L E]|[G E]].
  - rewrite E. cbn [QuoteMeta]. destruct (Special c) eqn:Sp.
    + replace ([cEscape; c] ++ QuoteMeta (utf8 cs)) with (cEscape :: encode c ++ QuoteMeta (utf8 cs)) by (rewrite E; reflexivity). apply wt_esc; assumption.
    + assert (NI : ~ In c [cAny; cSingle; cEscape; cRangeOpen; cRangeClose; cTermsOpen; cTermsClose]).
      { intros I. apply Special_iff in I. congruence. }
      rewrite <- E.
      apply wt_plain; [exact W| | |exact IH].
      * unfold special_in. rewrite app_nil_r. intros I. apply NI. cbn in I |- *. tauto.
      * intros ->. apply NI. cbn. tauto.
  - rewrite QuoteMeta_high by exact E. apply wt_plain; [exact W| | |exact IH].
    + unfold special_in. rewrite app_nil_r. cbn. unfold cSingle, cAny, cRangeOpen, cTermsOpen. lia.
    + unfold cEscape. lia.
Qed.

(** ** C42 *)
(** A quoted text compiles, whatever the separators, and every glob compiled from it accepts exactly that text (and never panics). *)
Theorem C42_quote_literal : forall cs seps, Forall writable cs ->
  (exists m, Globs (QuoteMeta (utf8 cs)) seps m)
  /\ forall m, Globs (QuoteMeta (utf8 cs)) seps m -> forall s, (accepts m s <-> s = utf8 cs) /\ (rejects m s <-> s <> utf8 cs).
Proof.
  intros cs seps W.
  assert (P : Parse (QuoteMeta (utf8 cs)) = POk (NPattern (match cs with [] => [] | _ => [NText (utf8 cs)] end))).
  { apply parse_written. eexists. split; [reflexivity|]. pose proof (QuoteMeta_writes cs W) as Q. destruct cs as [|c cs]; [constructor|].
    rewrite <- (app_nil_r (QuoteMeta _)). constructor; [|exact I|constructor]. apply w_text; [discriminate|exact Q]. }
  split.
  - destruct cs as [|c cs]; eexists; eexists; exists 2; (split; [exact P|]); reflexivity.
  - intros m [t [fuel [P' C]]] s. rewrite P in P'. injection P' as <-. unfold accepts, rejects, Match.
    destruct cs as [|c cs].
    + destruct fuel as [|f]; [discriminate|]. injection C as <-. cbn [sem sMatch]. change (utf8 []) with (@nil Z).
      destruct (eqs s []) eqn:E; [apply eqs_iff in E; subst; split; split; intros; congruence|].
      assert (N : s <> []) by (intros ->; rewrite eqs_refl in E; discriminate). split; split; intros; congruence.
    + destruct fuel as [|[|f]]; [discriminate|discriminate|]. cbn in C. injection C as <-. cbn [sem sMatch]. change (encode c ++ concat (map encode cs)) with (utf8 (c :: cs)).
      destruct (eqs (utf8 (c :: cs)) s) eqn:E; [apply eqs_iff in E; subst; split; split; intros; congruence|].
      assert (N : s <> utf8 (c :: cs)) by (intros ->; rewrite eqs_refl in E; discriminate). split; split; intros; congruence.
Qed.
Print Assumptions C42_quote_literal.
(** NUL is not quoted: it ends the text, and at the start of an item it ends the pattern. *)
Theorem C42_nul_refuted : forall seps, (exists m, Globs (QuoteMeta (0%Z :: lit "ab")) seps m /\ accepts m [] /\ rejects m (0%Z :: lit "ab"))
  /\ exists m, Globs (QuoteMeta (lit "a" ++ 0%Z :: lit "b")) seps m /\ rejects m (lit "a" ++ 0%Z :: lit "b").
Proof.
  intros seps. split.
  - exists MNothing. split; [|split; reflexivity]. exists (NPattern []), 2. split; vm_compute; reflexivity.
  - exists (MRow [MText (lit "a"); MText (lit "b")] 2). split; [|reflexivity]. exists (NPattern [NText (lit "a"); NText (lit "b")]), 2. split; vm_compute; reflexivity.
Qed.
Print Assumptions C42_nul_refuted.
Definition c42_text : list Z := [123; 233; 42; 44; 97; 92; 125; 8364; 45; 93; 33]%Z.      (* {é*,a\}€-]! *)
Example C42_case : Forall writable c42_text.
Proof. repeat constructor; try discriminate. Qed.
Example C42_case_quoted : QuoteMeta (utf8 c42_text) = [92; 123; 195; 169; 92; 42; 44; 97; 92; 92; 92; 125; 226; 130; 172; 45; 92; 93; 33]%Z.
Proof. vm_compute. reflexivity. Qed.

(** ** C43 *)
(** Parsing any byte string gives a tree or an error. *)
Theorem C43_parse_total : forall s, (exists t, Parse s = POk t) \/ Parse s = PErr.
Proof.
  intros s. pose proof (parse_nocrash (S (length s)) 0 s [] [] ltac:(lia) eq_refl) as N. unfold Parse. change (Lex s) with (Lx 0 s).
  destruct (parse (Lx 0 s) None [] []) as [t| |]; [eauto|auto|contradiction].
Qed.
Print Assumptions C43_parse_total.
(** Lexing makes progress: an item is the end of the input or consumes at least one byte; so the tokens do not depend on how many rounds are
    allowed beyond the length of the input, and the last of them, and no other, is the end or an error. *)
Theorem C43_progress : forall s,
  (forall level ts level' s', fetchItem level s = Some (ts, level', s') -> ts = [TEOF] \/ length s' < length s)
  /\ (forall fuel, length s < fuel -> lex fuel 0 s = Lex s)
  /\ exists body e, Lex s = body ++ [e] /\ (e = TEOF \/ e = TError) /\ ~ In TEOF body /\ ~ In TError body.
Proof.
  intros s. split; [|split].
  - intros level ts level' s' F. apply fetchItem_inv in F. destruct F as [F|[_ F]]; auto.
  - intros fuel L. apply lex_fuel; lia.
  - apply (Lx_closed (S (length s))). lia.
Qed.
Print Assumptions C43_progress.
Example C43_case_unclosed : Parse (lit "a{b,[c-d]?{**") = POk (NPattern [NText (lit "a"); NAnyOf [NPattern [NText (lit "b")]; NPattern [NRange false 99 100; NSingle; NAnyOf [NPattern [NSuper]]]]]).
Proof. vm_compute. reflexivity. Qed.
Example C43_case_error : Parse (lit "a[b") = PErr /\ Parse (lit "[]") = PErr /\ Parse [97; 255]%Z = PErr.
Proof. vm_compute. auto. Qed.

(** ** C44 *)
(** Whatever tree is written by the grammar, parsing gives the tree back. *)
Theorem C44_parse_written : forall t s, writes_pattern t s -> Parse s = POk t.
Proof. exact parse_written. Qed.
Print Assumptions C44_parse_written.
(** So the grammar is unambiguous. *)
Theorem C44_unambiguous : forall t t' s, writes_pattern t s -> writes_pattern t' s -> t = t'.
Proof. intros t t' s W W'. apply parse_written in W. apply parse_written in W'. congruence. Qed.
Print Assumptions C44_unambiguous.
(** Where the documented grammar is not followed: a class of several ranges or of characters and ranges (glob.go:24-25, 31-34) is an error or a
    list with a hyphen; an escaped hyphen first in a class is taken for a range; an unclosed alternative is accepted. *)
Theorem C44_grammar_refuted :
  Parse (lit "[a-cx]") = PErr /\ Parse (lit "[a-cx-z]") = PErr
  /\ Parse (lit "[ax-z]") = POk (NPattern [NList false (lit "ax-z")])
  /\ Parse (lit "[\-a]") = POk (NPattern [NRange false 92 97]) /\ Parse (lit "[\-]") = PErr
  /\ Parse (lit "a{b,c") = POk (NPattern [NText (lit "a"); NAnyOf [NPattern [NText (lit "b")]; NPattern [NText (lit "c")]]]).
Proof. vm_compute. repeat split. Qed.
Print Assumptions C44_grammar_refuted.
(** A tree with every kind of term, nested alternatives, escapes and a class of quoted characters. *)
Definition c44_tree : Node :=
  NPattern [NText (lit "a*,"); NAny; NAnyOf [NPattern []; NPattern [NSuper; NAny; NAnyOf [NPattern [NText (lit "x,y")]; NPattern [NSingle]]]; NPattern [NList true (lit "]!-")]]; NRange true 33 97; NSuper].
Example C44_case : writes_pattern c44_tree (lit "a\*,*{,***{x\,y,?},[!\]!\-]}[!!-a]**").
Proof.
  assert (Q : forall c, (0 < c < 128)%Z -> writable c).
  { intros c B. split; [|unfold RuneError; lia]. split; [lia|]. unfold surrogate, in_range. rewrite (proj2 (Z.leb_gt 55296 c)) by lia. reflexivity. }
  assert (P : forall sp c cs s, (0 < c < 128)%Z -> ~ In c sp -> c <> cEscape -> writes_text sp cs s -> writes_text sp (c :: cs) (c :: s)).
  { intros sp c cs s B N NE W. replace (c :: s) with (encode c ++ s). - apply wt_plain; auto. - destruct (encode_cases c (proj1 (Q c B))) as [[_ E]|[G _]]; [rewrite E; reflexivity|lia]. }
  assert (X : forall sp c cs s, (0 < c < 128)%Z -> writes_text sp cs s -> writes_text sp (c :: cs) (cEscape :: c :: s)).
  { intros sp c cs s B W. replace (c :: s) with (encode c ++ s). - apply wt_esc; auto. - destruct (encode_cases c (proj1 (Q c B))) as [[_ E]|[G _]]; [rewrite E; reflexivity|lia]. }
  assert (T : forall a cs s, cs <> [] -> writes_text (special_in a) cs s -> utf8 cs = cs -> writes a (NText cs) s).
  { intros a cs s N W E. rewrite <- E at 1. apply w_text; assumption. }
  eexists. split; [reflexivity|].
  apply (ws_cons false _ _ (lit "a\*,") (lit "*{,***{x\,y,?},[!\]!\-]}[!!-a]**")); [|exact I|].
  { apply T; [discriminate| |reflexivity]. cbn. apply P; [lia|cbn; unfold cSingle, cAny, cRangeOpen, cTermsOpen; lia|discriminate|]. apply (X _ 42%Z); [lia|]. apply P; [lia|cbn; unfold cSingle, cAny, cRangeOpen, cTermsOpen; lia|discriminate|]. constructor. }
  apply (ws_cons false _ _ (lit "*") (lit "{,***{x\,y,?},[!\]!\-]}[!!-a]**")); [apply w_any|exact I|].
  apply (ws_cons false _ _ (lit "{,***{x\,y,?},[!\]!\-]}") (lit "[!!-a]**")); [|exact I|].
  { apply (w_anyof false _ (lit ",***{x\,y,?},[!\]!\-]")). apply (wa_cons [] _ [] (lit "***{x\,y,?},[!\]!\-]")); [constructor|].
    apply (wa_cons [NSuper; NAny; NAnyOf [NPattern [NText (lit "x,y")]; NPattern [NSingle]]] _ (lit "***{x\,y,?}") (lit "[!\]!\-]")).
    - apply (ws_cons true _ _ (lit "**") (lit "*{x\,y,?}")); [apply w_super|exact I|]. apply (ws_cons true _ _ (lit "*") (lit "{x\,y,?}")); [apply w_any|exact I|].
      apply (ws_cons true _ _ (lit "{x\,y,?}") []); [|exact I|constructor]. apply (w_anyof true _ (lit "x\,y,?")).
      apply (wa_cons [NText (lit "x,y")] _ (lit "x\,y") (lit "?")).
      + apply (ws_cons true _ _ (lit "x\,y") []); [|exact I|constructor]. apply T; [discriminate| |reflexivity]. cbn.
        apply P; [lia|cbn; unfold cSingle, cAny, cRangeOpen, cTermsOpen, cTermsClose, cComma; lia|discriminate|]. apply (X _ 44%Z); [lia|].
        apply P; [lia|cbn; unfold cSingle, cAny, cRangeOpen, cTermsOpen, cTermsClose, cComma; lia|discriminate|]. constructor.
      + apply wa_one. apply (ws_cons true _ _ (lit "?") []); [apply w_single|exact I|constructor].
    - apply wa_one. apply (ws_cons true _ _ (lit "[!\]!\-]") []); [|exact I|constructor].
      change (NList true (lit "]!-")) with (NList true (utf8 (lit "]!-"))). apply (w_list true true (lit "]!-") (lit "\]!\-")).
      split; [discriminate|]. split; [|split; [discriminate|reflexivity]]. cbn. apply (X _ 93%Z); [lia|].
      apply P; [lia|cbn; unfold cBetween, cRangeClose; lia|discriminate|]. apply (X _ 45%Z); [lia|]. constructor. }
  apply (ws_cons false _ _ (lit "[!!-a]") (lit "**")); [|exact I|].
  { apply (w_range false true 33%Z 97%Z); [apply Q; lia|apply Q; lia|lia|discriminate]. }
  apply (ws_cons false _ _ (lit "**") []); [apply w_super|exact I|constructor].
Qed.
