(** * C61: inserting entries and reading them back; C40: the file system stays in order. *)
From Coq Require Import String.
From Coq Require Import ZArith NArith Arith List Bool Lia Permutation Sorting.
From Verif Require Import GoStr FsModel CmModel CmProofs RepoModel RepoLines RepoSpec FsProofs RepoScan RepoProps TermModel CmdModel CmSpec CmdSpec CmdProofs FsWrite CmdProps CmdProps2 InsertSpec.
Import ListNotations.
Open Scope nat_scope.

(** ** Directories stay sorted, without duplicates *)
Lemma str_lt_total a : forall b, a = b \/ str_lt a b = true \/ str_lt b a = true.
Proof.
  induction a as [|x a IH]; intros [|y b]; cbn [str_lt]; auto. destruct (Z.lt_trichotomy x y) as [L|[->|L]].
  - right. left. apply Z.ltb_lt in L. rewrite L. reflexivity.
  - destruct (IH b) as [->|[H|H]]; [left; reflexivity|right; left|right; right]; rewrite H, Z.eqb_refl, orb_true_r; reflexivity.
  - right. right. apply Z.ltb_lt in L. rewrite L. reflexivity.
Qed.
Lemma put_entry_names es n x m : In m (map fst (put_entry es n x)) <-> m = n \/ In m (map fst es).
Proof.
  induction es as [|[a y] es IH]; cbn [put_entry map In fst]; [intuition congruence|]. destruct (str_dec n a) as [<-|N]; [cbn [map In fst]; intuition congruence|]. destruct (str_lt n a); cbn [map In fst]; [intuition congruence|]. rewrite IH. intuition congruence.
Qed.
Lemma put_entry_wfs es n x : wfs es -> normal n -> wf x -> wfs (put_entry es n x).
Proof.
  intros W Nn Wx. induction W as [|a y es Na Wy W IH F]; cbn [put_entry]; [constructor; [assumption|assumption|constructor|constructor]|].
  destruct (str_dec n a) as [<-|N]; [constructor; assumption|]. destruct (str_lt n a) eqn:L.
  - constructor; [assumption|assumption|constructor; assumption|]. constructor; [exact L|]. rewrite Forall_forall in *. intros e I. exact (str_lt_trans _ _ _ L (F e I)).
  - constructor; try assumption. rewrite Forall_forall in *. intros [m z] I. cbn [fst]. assert (I' : In m (map fst (put_entry es n x))) by (change m with (fst (m, z)); apply in_map; exact I). apply put_entry_names in I'. destruct I' as [->|I'].
    + destruct (str_lt_total n a) as [E|[H|H]]; [contradiction|congruence|exact H].
    + apply in_map_iff in I'. destruct I' as [[m' z'] [E I']]. cbn in E. subst. exact (F _ I').
Qed.
Lemma create_at_wfs : forall ns es c es', Forall normal ns -> wfs es -> create_at es ns c = Some es' -> wfs es'.
Proof.
  induction ns as [|n rest IH]; intros es c es' F W H; [discriminate|]. inversion F as [|? ? Fn F']; subst. destruct rest as [|r0 rest].
  - cbn [create_at] in H. assert (E : es' = put_entry es n (File c)) by (destruct (child es n) as [[x|x]|]; congruence). subst. apply put_entry_wfs; [assumption|assumption|constructor].
  - change (create_at es (n :: r0 :: rest) c) with (match child es n with Some (Dir sub) => match create_at sub (r0 :: rest) c with Some sub' => Some (put_entry es n (Dir sub')) | None => None end | _ => None end) in H.
    destruct (child es n) as [[x|sub]|] eqn:EC; try discriminate. destruct (create_at sub (r0 :: rest) c) as [sub'|] eqn:CA; [|discriminate]. injection H as <-. apply put_entry_wfs; [assumption|assumption|]. constructor. apply (IH sub c sub' F'); [|exact CA].
    apply child_in in EC; [|exact W]. destruct (wfs_in _ _ _ W EC) as [_ X]. inversion X. assumption.
Qed.
Lemma abs_names_all_normal : forall cs st, Forall (fun c => ~ In slash c) cs -> Forall normal st -> Forall normal (abs_names st cs).
Proof.
  induction cs as [|c cs IH]; intros st F Fs; cbn [abs_names]; [apply Forall_rev; exact Fs|]. inversion F as [|? ? Fc F']; subst.
  destruct (str_dec c []) as [->|N1]; [apply IH; assumption|]. rewrite (eqs_false c []) by assumption. destruct (str_dec c (lit ".")) as [->|N2]; [apply IH; assumption|]. rewrite (eqs_false c (lit ".")) by assumption. cbn [orb].
  destruct (str_dec c (lit "..")) as [->|N3].
  - change (eqs (lit "..") (lit "..")) with true. cbv iota. apply IH; [assumption|]. destruct Fs; [constructor|assumption].
  - rewrite (eqs_false c (lit "..")) by assumption. apply IH; [assumption|]. constructor; [repeat split; assumption|assumption].
Qed.
Lemma comps_noslash s : Forall (fun c => ~ In slash c) (comps s).
Proof.
  induction s as [|c s IH]; cbn [comps]; [repeat constructor; intros []|]. destruct (c =? slash)%Z eqn:E; [constructor; [intros []|exact IH]|].
  destruct (comps s) as [|h t]; [constructor; [|constructor]; intros [H|[]]; subst; rewrite Z.eqb_refl in E; discriminate|]. inversion IH; subst. constructor; [|assumption]. intros [H|H]; [subst; rewrite Z.eqb_refl in E; discriminate|contradiction].
Qed.
Lemma create_wfs w p c w' : Forall normal (cwd w) -> wfs (tree w) -> create w p c = Some w' -> wfs (tree w') /\ cwd w' = cwd w.
Proof.
  intros Fc W H. unfold create in H. destruct p as [|a p]; [discriminate|]. destruct (create_at (tree w) (names_of w (a :: p)) c) as [t|] eqn:E; [|discriminate]. injection H as <-. split; [|reflexivity]. cbn [tree]. refine (create_at_wfs _ _ _ _ _ W E). unfold names_of. apply abs_names_all_normal; [|constructor].
  apply Forall_app. split; [destruct (rooted (a :: p)); [constructor|]; apply (Forall_impl _ (fun c (H : normal c) => proj2 (proj2 (proj2 H))) Fc)|apply comps_noslash].
Qed.
(** Whatever its arguments, insert leaves every directory with distinct names in order. *)
Theorem C40_insert_keeps_order w groot file name : Forall normal (cwd w) -> wfs (tree w) -> wfs (tree (fst (Insert w groot file name))) /\ cwd (fst (Insert w groot file name)) = cwd w.
Proof.
  intros Fc W. unfold Insert. destruct file as [src|]; [|split; [exact W|reflexivity]]. destruct (create w (Join groot name) []) as [w1|] eqn:C1; [|split; [exact W|reflexivity]]. destruct (create_wfs _ _ _ _ Fc W C1) as [W1 E1].
  destruct (create w1 (Join groot name) _) as [w2|] eqn:C2; cbn [fst]; [|split; assumption]. rewrite <- E1 in Fc. destruct (create_wfs _ _ _ _ Fc W1 C2) as [W2 E2]. split; [exact W2|congruence].
Qed.

(** ** C61 *)
(** The inserts one after the other; true if each returned normally without error or output. *)
Fixpoint inserts (w : World) (rs : list str) (reqs : list Request) : World * bool :=
  match reqs with
  | [] => (w, true)
  | r :: rest => match Insert w (abs_path rs) (Some (abs_path (source r))) (rel (category r) (entry_name r)) with
                 | (w', Done [] [] ENil) => inserts w' rs rest
                 | (w', _) => (w', false)
                 end
  end.
Lemma below_app : forall a b nd x, below nd a = Found x -> below nd (a ++ b) = below x b.
Proof. induction a as [|n a IH]; intros b nd x H; cbn [below app] in *; [congruence|]. destruct nd as [c|es]; [discriminate|]. destruct (child es n); [apply IH; exact H|discriminate]. Qed.
Lemma below_wf : forall a nd x, wf nd -> below nd a = Found x -> wf x.
Proof.
  induction a as [|n a IH]; intros nd x W H; cbn [below] in H; [congruence|]. destruct nd as [c|es]; [discriminate|]. destruct (child es n) as [y|] eqn:E; [|discriminate]. inversion W as [|? W']; subst. apply child_in in E; [|exact W']. apply (IH y); [|exact H]. apply (wfs_in _ _ _ W' E).
Qed.
Lemma holds_below es c n d : wfs es -> (holds es c n d <-> below (Dir es) [c; n] = Found (File d)).
Proof.
  intros W. unfold holds. cbn [below]. split.
  - intros [sub [I1 I2]]. assert (W' : wfs sub) by (destruct (wfs_in _ _ _ W I1) as [_ X]; inversion X; assumption). apply child_in in I1; [|exact W]. apply child_in in I2; [|exact W']. rewrite I1, I2. reflexivity.
  - destruct (child es c) as [[f|sub]|] eqn:E; try discriminate. apply child_in in E; [|exact W]. intros H. exists sub. split; [exact E|]. destruct (child sub n) as [y|] eqn:E2; [|discriminate]. injection H as ->. apply child_in in E2; [exact E2|]. destruct (wfs_in _ _ _ W E) as [_ X]. inversion X. assumption.
Qed.
Lemma comps_rel c n : normal c -> normal n -> comps (rel c n) = [c; n].
Proof. intros Nc Nn. change (rel c n) with (joins [c; n]). apply comps_joins; [discriminate|]. apply noslashes. repeat (constructor; try assumption). Qed.
(** One insert. *)
Lemma insert_one w rs r : rs <> [] -> Forall normal rs -> servable w rs r ->
  exists w', Insert w (abs_path rs) (Some (abs_path (source r))) (rel (category r) (entry_name r)) = (w', Done [] [] ENil) /\ only_change w w' (rs ++ [category r; entry_name r]) (text r).
Proof.
  intros Nr Fr [S1 [S2 [S3 [S4 [S5 [S6 [S7 S8]]]]]]]. pose proof (comps_rel _ _ S5 S6) as CR.
  destruct (C40_insert w rs (source r) (rel (category r) (entry_name r)) (text r) Nr Fr) as [w' [I O]]; try assumption.
  - rewrite CR. repeat (constructor; try assumption).
  - rewrite CR. apply S4.
  - rewrite CR. rewrite removelast_app by discriminate. exact S7.
  - rewrite CR. exact S8.
  - rewrite CR in O. exists w'. split; [exact I|exact O].
Qed.
Lemma servable_kept w w' rs r r' : servable w rs r' -> servable w rs r -> only_change w w' (rs ++ [category r; entry_name r]) (text r) -> servable w' rs r'.
Proof.
  intros [S1 [S2 [S3 [S4 [S5 [S6 [S7 S8]]]]]]] [T1 [T2 [T3 [T4 [T5 [T6 [T7 T8]]]]]]] [O1 [O2 [O3 O4]]]. repeat split; try assumption; try (apply S5 || apply S6).
  - apply O3; [apply S4|exact S3].
  - apply O4; [|exact S7]. intros E. apply app_inv_head in E. discriminate.
  - intros D. destruct (list_eq_dec str_dec (rs ++ [category r'; entry_name r']) (rs ++ [category r; entry_name r])) as [E|N].
    + rewrite E in D. exact (file_not_dir _ _ _ O2 D).
    + apply S8. apply O4; assumption.
Qed.
Lemma insert_wfs w rs ss r w' o : rs <> [] -> Forall normal rs -> normal (category r) -> normal (entry_name r) -> wfs (tree w) -> Insert w (abs_path rs) (Some ss) (rel (category r) (entry_name r)) = (w', o) -> wfs (tree w').
Proof.
  intros Nr Fr Nc Nn W H. destruct (join_abs rs (rel (category r) (entry_name r)) Nr Fr) as [J [NT FT]]; [rewrite comps_rel by assumption; repeat (constructor; try assumption)|].
  unfold Insert in H. rewrite J in H. set (T := rs ++ comps (rel (category r) (entry_name r))) in *.
  assert (K : forall v c v', wfs (tree v) -> create v (abs_path T) c = Some v' -> wfs (tree v')).
  { intros v c v' Wv C. unfold create in C. change (abs_path T) with (slash :: joins T) in C. cbv iota in C. change (slash :: joins T) with (abs_path T) in C. rewrite names_abs in C by assumption. destruct (create_at (tree v) T c) as [t|] eqn:E; [|discriminate]. injection C as <-. exact (create_at_wfs _ _ _ _ FT Wv E). }
  destruct (create w (abs_path T) []) as [w1|] eqn:C1; [|injection H as <- _; exact W]. destruct (create w1 (abs_path T) _) as [w2|] eqn:C2; injection H as <- _; [exact (K _ _ _ (K _ _ _ W C1) C2)|exact (K _ _ _ W C1)].
Qed.
Lemma store_step w w' rs es r : rs <> [] -> Forall normal rs -> wfs (tree w') -> store_at w (abs_path rs) es -> only_change w w' (rs ++ [category r; entry_name r]) (text r) ->
  exists es', store_at w' (abs_path rs) es' /\ (forall c n d, holds es' c n d <-> (for_entry c n r /\ text r = d) \/ (~ for_entry c n r /\ holds es c n d)).
Proof.
  intros Nr Fr W' ST O. destruct ST as [A1 [A2 [A3 [A4 [A5 A6]]]]]. rewrite lookup_abs in A5 by assumption. destruct O as [O1 [O2 [O3 O4]]].
  assert (D : is_dir w' rs). { apply O4; [|exists es; exact A5]. intros E. apply (f_equal (@length _)) in E. rewrite app_length in E. cbn [length] in E. lia. }
  destruct D as [es' D]. exists es'. assert (We' : wfs es') by (assert (X : wf (Dir es')) by (apply (below_wf rs (Dir (tree w'))); [constructor; exact W'|exact D]); inversion X; assumption).
  split; [repeat split; try assumption; rewrite lookup_abs by assumption; exact D|].
  assert (V : forall u x c n d, node_at u rs = Found (Dir x) -> (below (Dir x) [c; n] = Found (File d) <-> is_file u (rs ++ [c; n]) d)).
  { intros u x c n d N. unfold is_file, node_at. rewrite (below_app rs [c; n] _ _ N). tauto. }
  intros c n d. rewrite (holds_below es' c n d We'), (holds_below es c n d A6), (V _ _ _ _ _ D), (V _ _ _ _ _ A5). unfold for_entry.
  destruct (list_eq_dec str_dec (rs ++ [c; n]) (rs ++ [category r; entry_name r])) as [E|N].
  - rewrite E. apply app_inv_head in E. injection E as -> ->. split.
    + intros H. left. split; [auto|]. unfold is_file in *. rewrite O2 in H. congruence.
    + intros [[_ <-]|[H _]]; [exact O2|exfalso; apply H; auto].
  - rewrite (O3 _ d N). split; [intros H; right; split; [intros [<- <-]; apply N; reflexivity|exact H]|]. intros [[[<- <-] _]|[_ H]]; [exfalso; apply N; reflexivity|exact H].
Qed.
(** Any number of inserts into an existing store: all succeed, and afterwards the store holds for each entry what was inserted last,
    all other entries being as they were. *)
Theorem C61_history w rs es reqs : rs <> [] -> Forall normal rs -> wfs (tree w) -> store_at w (abs_path rs) es -> Forall (servable w rs) reqs ->
  exists w' es', inserts w rs reqs = (w', true) /\ store_at w' (abs_path rs) es' /\ updated es reqs es'.
Proof.
  intros Nr Fr. revert w es. induction reqs as [|r reqs IH]; intros w es W ST F.
  - exists w, es. split; [reflexivity|]. split; [exact ST|]. intros c n d. split; [intros H; right; auto|]. intros [[a [x [b [E _]]]]|[_ H]]; [destruct a; discriminate|exact H].
  - inversion F as [|? ? Sr F']; subst. destruct (insert_one w rs r Nr Fr Sr) as [w1 [I O]]. assert (W1 : wfs (tree w1)) by (apply (insert_wfs w rs (abs_path (source r)) r w1 _ Nr Fr) in I; [exact I|apply Sr|apply Sr|exact W]).
    destruct (store_step w w1 rs es r Nr Fr W1 ST O) as [es1 [ST1 H1]].
    destruct (IH w1 es1 W1 ST1) as [w' [es' [R [ST' H]]]]. { rewrite Forall_forall in *. intros r' Ir. apply (servable_kept w w1 rs r r'); auto. }
    exists w', es'. split; [cbn [inserts]; rewrite I; exact R|]. split; [exact ST'|]. intros c n d. rewrite (H c n d). split.
    + intros [[a [x [b [E [X [Y Z]]]]]]|[N Hh]].
      * left. exists (r :: a), x, b. split; [rewrite E; reflexivity|auto].
      * apply H1 in Hh. destruct Hh as [[Fe T]|[Fe Hh]]; [left; exists [], r, reqs; auto|right; split; [constructor; assumption|exact Hh]].
    + intros [[a [x [b [E [X [Y Z]]]]]]|[N Hh]].
      * destruct a as [|a0 a]; injection E as -> ->; [right; split; [exact Z|apply H1; left; auto]|left; exists a, x, b; auto].
      * inversion N as [|? ? N1 N2]; subst. right. split; [exact N2|]. apply H1. right. auto.
Qed.
(** The names list shows afterwards: the entries there were and those inserted, in the six categories. *)
Lemma updated_entry es reqs es' : wfs es' -> updated es reqs es' -> forall c n, entry es' c n <->
  In c (map lit ["people"; "email"; "phone"; "sites"; "devices"; "bank"]%string) /\ n <> lit ".DS_Store" /\ ((exists r, In r reqs /\ for_entry c n r) \/ exists d, holds es c n d).
Proof.
  intros W U c n. unfold entry. assert (H : (exists sub content, In (c, Dir sub) es' /\ In (n, File content) sub) <-> (exists d, holds es' c n d)) by (unfold holds; split; [intros [s [d X]]; exists d, s; exact X|intros [d [s X]]; exists s, d; exact X]).
  rewrite H. clear H. assert (D : forall r, for_entry c n r \/ ~ for_entry c n r) by (intros r; unfold for_entry; destruct (str_dec (category r) c), (str_dec (entry_name r) n); tauto).
  assert (K : (exists d, holds es' c n d) <-> ((exists r, In r reqs /\ for_entry c n r) \/ exists d, holds es c n d)).
  { split.
    - intros [d X]. apply U in X. destruct X as [[a [r [b [E [Y _]]]]]|[_ X]]; [left; exists r; split; [rewrite E; apply in_or_app; right; left; reflexivity|exact Y]|right; exists d; exact X].
    - intros X. assert (L : (exists d, last_request reqs c n d) \/ Forall (fun r => ~ for_entry c n r) reqs).
      { clear -D. induction reqs as [|r reqs IH]; [right; constructor|]. destruct IH as [[d [a [x [b [E Y]]]]]|N]; [left; exists d, (r :: a), x, b; split; [rewrite E; reflexivity|exact Y]|]. destruct (D r) as [F|F]; [left; exists (text r), [], r, reqs; auto|right; constructor; assumption]. }
      destruct L as [[d L]|N]; [exists d; apply U; left; exact L|]. destruct X as [[r [I F]]|[d X]]; [exfalso; rewrite Forall_forall in N; exact (N r I F)|exists d; apply U; right; auto]. }
  rewrite K. tauto.
Qed.
Theorem C61_list lower w rs es reqs env groot w' o : rs <> [] -> Forall normal rs -> wfs (tree w) -> store_at w (abs_path rs) es -> Forall (servable w rs) reqs ->
  ExpandEnv (getenv env) groot = abs_path rs -> inserts w rs reqs = (w', true) -> List_ lower w' env groot [] o ->
  exists ws, o = Done [] (lines_of ws) ENil /\ NoDup ws /\ forall f, In f ws <-> exists c n, f = rel c n /\
    In c (map lit ["people"; "email"; "phone"; "sites"; "devices"; "bank"]%string) /\ n <> lit ".DS_Store" /\ ((exists r, In r reqs /\ for_entry c n r) \/ exists d, holds es c n d).
Proof.
  intros Nr Fr W ST F E R L. destruct (C61_history w rs es reqs Nr Fr W ST F) as [w1 [es' [R1 [ST' U]]]]. rewrite R in R1. injection R1 as <-. destruct (C38_list_all _ _ _ _ _ _ _ E ST' L) as [groups [-> [[ND AE] _]]]. exists (concat (map snd groups)). split; [reflexivity|]. split; [exact ND|].
  intros f. rewrite AE. pose proof (updated_entry es reqs es' ltac:(apply ST') U) as UE. split.
  - intros [c [n [X ->]]]. exists c, n. split; [reflexivity|]. apply UE. exact X.
  - intros [c [n [-> X]]]. exists c, n. split; [|reflexivity]. apply UE. exact X.
Qed.
(** An inserted entry's environment lines: set-env with its name sets exactly those variables to its first line. *)
Theorem C61_set_env upper w rs es reqs env groot w' c n d pw more env' o : rs <> [] -> Forall normal rs -> wfs (tree w) -> store_at w (abs_path rs) es -> Forall (servable w rs) reqs ->
  ExpandEnv (getenv env) groot = abs_path rs -> inserts w rs reqs = (w', true) ->
  last_request reqs c n d -> In c (map lit ["people"; "email"; "phone"; "sites"; "devices"; "bank"]%string) -> n <> lit ".DS_Store" -> shown d (pw :: more) -> ~ In 0%Z pw ->
  SetEnv upper w' env groot (rel c n) env' o ->
  (exists out, o = Done out [] ENil) /\
  forall k, env' k = Some pw /\ valid_key k /\ (exists t, In t more /\ HasPrefix t (lit "env:") = true /\ k = upper (TrimSpace (skipn 4 t)))
         \/ env' k = env k /\ ~ (valid_key k /\ exists t, In t more /\ HasPrefix t (lit "env:") = true /\ k = upper (TrimSpace (skipn 4 t))).
Proof.
  intros Nr Fr W ST F E R LR Ic Nn T NB SE. destruct (C61_history w rs es reqs Nr Fr W ST F) as [w1 [es' [R1 [ST' U]]]]. rewrite R in R1. injection R1 as <-. assert (We : wfs es') by apply ST'.
  assert (EC : entry_content es' (rel c n) d). { assert (H : holds es' c n d) by (apply U; left; exact LR). exists c, n. split; [|split; [exact H|reflexivity]]. split; [exact Ic|]. split; [exact Nn|]. destruct H as [s X]. exists s, d. exact X. }
  assert (NE : rel c n <> []) by (unfold rel; destruct c; discriminate).
  assert (SEL : forall f, selected (rel c n) f -> f = rel c n) by (intros f [X|X]; [exact X|contradiction]).
  assert (ES : forall k v, sets upper es' (rel c n) k v <-> valid_key k /\ v = pw /\ exists t, In t more /\ HasPrefix t (lit "env:") = true /\ k = upper (TrimSpace (skipn 4 t))).
  { intros k v. unfold sets. split.
    - intros [V [f [c' [ts [S1 [E1 [T1 [B1 I]]]]]]]]. apply SEL in S1. subst f. rewrite (entry_content_unique _ _ _ _ We E1 EC) in T1. rewrite (shown_unique _ _ _ T1 T) in I. cbn [env_pairs] in I. apply in_flat_map in I. destruct I as [t [It I]]. destruct (HasPrefix t (lit "env:")) eqn:HP; [|destruct I]. destruct I as [I|[]]. injection I as <- <-. split; [exact V|]. split; [reflexivity|]. exists t. auto.
    - intros [V [-> [t [It [HP ->]]]]]. split; [exact V|]. exists (rel c n), d, (pw :: more). split; [left; reflexivity|]. split; [exact EC|]. split; [exact T|]. split; [exact NB|]. cbn [env_pairs]. apply in_flat_map. exists t. split; [exact It|]. rewrite HP. left. reflexivity. }
  destruct (C36_set_env upper w' env groot (abs_path rs) es' (rel c n) env' o E ST') as [O H]; [|exact SE|].
  - intros f S1 [c' [ts [E1 [T1 B1]]]]. apply SEL in S1. subst f. rewrite (entry_content_unique _ _ _ _ We E1 EC) in T1. rewrite (shown_unique _ _ _ T1 T) in B1. exact (NB B1).
  - split; [exact O|]. intros k. destruct (H k) as [[[v [S1 X]]|[N X]] _].
    + left. apply ES in S1. destruct S1 as [V [-> Y]]. auto.
    + right. split; [exact X|]. intros [V Y]. apply (N pw). apply ES. auto.
Qed.
(** A history that meets the conditions, and what it leads to: two inserts of the same entry, one of another. *)
Definition world3 : World := {| tree := [(lit "a", File (lit "old")); (lit "b", File (lit "pw" ++ eol ++ lit "env: api")); (lit "vault", Dir vault)]; cwd := [] |}.
Definition history3 : list Request :=
  [ {| source := [lit "a"]; category := lit "sites"; entry_name := lit "new"; text := lit "old" |};
    {| source := [lit "a"]; category := lit "bank"; entry_name := lit "abn"; text := lit "old" |};
    {| source := [lit "b"]; category := lit "sites"; entry_name := lit "new"; text := lit "pw" ++ eol ++ lit "env: api" |} ].
Example ex_history : wfs (tree world3) /\ store_at world3 (abs_path [lit "vault"]) vault /\ Forall (servable world3 [lit "vault"]) history3 /\ last_request history3 (lit "sites") (lit "new") (lit "pw" ++ eol ++ lit "env: api")
  /\ exists w', inserts world3 [lit "vault"] history3 = (w', true) /\ lookup w' (lit "/vault/sites/new") = Found (File (lit "pw" ++ eol ++ lit "env: api")) /\ lookup w' (lit "/vault/bank/abn") = Found (File (lit "old")) /\ lookup w' (lit "/vault/sites/github") = Found (File (lit "pw2")).
Proof.
  split; [constructor; [repeat split; cbn; intuition discriminate|constructor| |repeat constructor]; constructor; [repeat split; cbn; intuition discriminate|constructor| |repeat constructor]; constructor; [repeat split; cbn; intuition discriminate|constructor; exact vault_wfs|constructor|constructor]|].
  split; [repeat split; try (vm_compute; congruence); exact vault_wfs|]. split.
  - unfold servable. repeat constructor; try (vm_compute; intuition discriminate); try reflexivity; try (intros [|? ?] X; discriminate X); try (intros [x X]; vm_compute in X; discriminate X); try (eexists; vm_compute; reflexivity).
  - split; [exists (firstn 2 history3); do 2 eexists; split; [reflexivity|]; split; [split; reflexivity|]; split; [reflexivity|constructor]|]. eexists. split; [vm_compute; reflexivity|]. split; [vm_compute; reflexivity|]. split; vm_compute; reflexivity.
Qed.
Print Assumptions C40_insert_keeps_order.
Print Assumptions C61_history.
Print Assumptions C61_list.
Print Assumptions C61_set_env.
