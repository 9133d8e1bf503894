(** * C72: the drawing of globdraw shows the compiled glob. *)
From Coq Require Import String.
From Coq Require Import ZArith Arith List Bool Lia.
From Verif Require Import Utf8 GoStr GlobLex GlobMatch GlobCompile GlobSpec GlobGramSpec GlobGram GlobLenSpec GlobLen GlobTool GlobToolProps GlobProps5 GlobProps2 GlobDraw GlobDrawSpec GlobDrawClean.
Import ListNotations.
Open Scope nat_scope.

(** ** The text of a drawing *)
Definition plain (s : str) : Prop := Forall (fun c => c <> percent) s.
Lemma plain_app a b : plain (a ++ b) <-> plain a /\ plain b.
Proof. apply Forall_app. Qed.
Lemma fprintf_plain o : plain o -> forall o', Fprintf0 o o' -> o' = o.
Proof.
  induction o as [|c o IH]; intros F o' P; [inversion P; reflexivity|]. inversion F as [|? ? O F']; subst.
  inversion P; subst; try (exfalso; apply O; reflexivity). f_equal. apply IH; assumption.
Qed.
Lemma fine_plain s : fine s -> plain s.
Proof. apply Forall_impl. intros c [A _]. exact A. Qed.
Lemma fine_quotable s : fine s -> quotable s.
Proof. induction 1 as [|c s [_ [Q B]] F IH]; constructor; assumption. Qed.
Definition plainb (s : str) : bool := forallb (fun c => negb (c =? 37)%Z) s.
Lemma plainb_plain s : plainb s = true -> plain s.
Proof. intros H. apply Forall_forall. intros c I. unfold plainb in H. rewrite forallb_forall in H. specialize (H c I). apply negb_true_iff, Z.eqb_neq in H. exact H. Qed.
Lemma node_plain id label : fine id -> fine label -> plain (node_text id label).
Proof. intros A B. unfold node_text, dq. rewrite !plain_app. repeat split; try (apply fine_plain; assumption); apply plainb_plain; reflexivity. Qed.
Lemma edge_plain a b : fine a -> fine b -> plain (edge_text a b).
Proof. intros A B. unfold edge_text, dq. rewrite !plain_app. repeat split; try (apply fine_plain; assumption); apply plainb_plain; reflexivity. Qed.
Lemma node_statements id label ss s : fine id -> fine label -> statements ss s -> statements (Vertex id label :: ss) (node_text id label ++ s).
Proof. intros A B C. pose proof (st_vertex id label ss s (fine_quotable _ A) (fine_quotable _ B) C) as H. unfold node_text, quoted, dq, quote in *. rewrite <- !app_assoc in *. exact H. Qed.
Lemma edge_statements a b ss s : fine a -> fine b -> statements ss s -> statements (Arrow a b :: ss) (edge_text a b ++ s).
Proof. intros A B C. pose proof (st_arrow a b ss s (fine_quotable _ A) (fine_quotable _ B) C) as H. unfold edge_text, quoted, dq, quote in *. rewrite <- !app_assoc in *. exact H. Qed.
Lemma statements_app a x b y : statements a x -> statements b y -> statements (a ++ b) (x ++ y).
Proof. induction 1; intros; [assumption|..]; rewrite <- !app_assoc; cbn [app]; rewrite <- ?app_assoc; constructor; auto. Qed.
Lemma dot_of title ss o : quotable title -> statements ss o -> dot title ss (lit "digraph G {graph[label=" ++ dq ++ title ++ dq ++ lit "];" ++ o ++ lit "}").
Proof. intros Q T. split; [exact Q|]. exists o. split; [exact T|]. unfold quoted, dq, quote. rewrite <- !app_assoc. reflexivity. Qed.

Scheme gz_mut := Induction for graphviz Sort Prop with sd_mut := Induction for side Sort Prop with pt_mut := Induction for parts Sort Prop.
Combined Scheme drawing_ind from gz_mut, sd_mut, pt_mut.
Definition side_tree (o : option Matcher) : Tree := match o with Some x => tree_of x | None => Fork (lit "<nil>") [] end.
(** One child drawn in front of the others. *)
Definition one_drawn (id : str) (t : Tree) (ss : list Stmt) : Prop := exists c sub, drawn t c sub /\ (ss = Arrow id c :: sub \/ ss = sub ++ [Arrow id c]).
Lemma one_more id t ts s1 s2 : one_drawn id t s1 -> all_drawn id ts s2 -> all_drawn id (t :: ts) (s1 ++ s2).
Proof. intros [c [sub [D [->| ->]]]] A; [cbn [app]; apply ad_first; assumption|rewrite <- app_assoc; cbn [app]; apply ad_last; assumption]. Qed.
Lemma drawing_drawn :
  (forall m id o, graphviz m id o -> clean m -> fine id -> plain o /\ exists ss, drawn (tree_of m) id ss /\ statements ss o)
  /\ (forall id x o, side id x o -> (forall m, x = Some m -> clean m) -> fine id -> plain o /\ exists ss, one_drawn id (side_tree x) ss /\ statements ss o)
  /\ (forall id ms o, parts id ms o -> Forall clean ms -> fine id -> plain o /\ exists ss, all_drawn id (map tree_of ms) ss /\ statements ss o).
Proof.
  apply drawing_ind.
  - intros v l r ll rl len id o1 o2 _ IHl _ IHr C F. inversion C as [| | | | | | | | | | | | | | | | | |? ? ? ? ? ? Cv Cl Cr]; subst.
    destruct (IHl Cl F) as [P1 [s1 [D1 T1]]]. destruct (IHr Cr F) as [P2 [s2 [D2 T2]]]. pose proof (string_fine v Cv) as FV. split; [rewrite !plain_app; auto using node_plain|].
    exists (Vertex id (String_ v) :: s1 ++ s2). split; [|apply node_statements; auto using statements_app].
    cbn [tree_of]. fold (side_tree l). fold (side_tree r). constructor. apply one_more; [exact D1|]. rewrite <- (app_nil_r s2). apply one_more; [exact D2|constructor].
  - intros ms id o _ IH C F. inversion C; subst. destruct (IH H0 F) as [P [ss [D T]]]. assert (L : fine (lit "AnyOf")) by (apply fine_lit; reflexivity). split; [rewrite plain_app; auto using node_plain|].
    exists (Vertex id (lit "AnyOf") :: ss). split; [cbn [tree_of]; constructor; exact D|apply node_statements; assumption].
  - intros ms id o _ IH C F. inversion C; subst. destruct (IH H0 F) as [P [ss [D T]]]. assert (L : fine (lit "EveryOf")) by (apply fine_lit; reflexivity). split; [rewrite plain_app; auto using node_plain|].
    exists (Vertex id (lit "EveryOf") :: ss). split; [cbn [tree_of]; constructor; exact D|apply node_statements; assumption].
  - intros m id K C F. pose proof (string_fine m C) as FS. split; [apply node_plain; assumption|]. exists [Vertex id (String_ m)].
    split; [|rewrite <- (app_nil_r (node_text id (String_ m))); apply node_statements; [exact F|exact FS|constructor]].
    destruct m; try destruct K; cbn [tree_of]; constructor; constructor.
  - intros id n _ _ F. pose proof (hex_fine n) as H. assert (L : fine (lit "<nil>")) by (apply fine_lit; reflexivity). split; [rewrite plain_app; auto using node_plain, edge_plain|].
    exists [Vertex (hex n) (lit "<nil>"); Arrow id (hex n)]. split; [|rewrite <- (app_nil_r (edge_text id (hex n))); apply node_statements; [assumption..|]; apply edge_statements; [assumption..|constructor]].
    exists (hex n), [Vertex (hex n) (lit "<nil>")]. split; [constructor; constructor|right; reflexivity].
  - intros id m n o o' _ _ IH FP C F. pose proof (hex_fine n) as H. destruct (IH (C m eq_refl) H) as [P [ss [D T]]]. rewrite (fprintf_plain o P o' FP). split; [rewrite plain_app; auto using edge_plain|].
    exists (Arrow id (hex n) :: ss). split; [exists (hex n), ss; split; [exact D|left; reflexivity]|apply edge_statements; assumption].
  - intros id _ _. split; [constructor|]. exists []. split; constructor.
  - intros id m ms n o o' os _ _ IH FP _ IHs C F. inversion C as [|? ? C1 C2]; subst. pose proof (hex_fine n) as H. destruct (IH C1 H) as [P [ss [D T]]]. destruct (IHs C2 F) as [P2 [s2 [D2 T2]]].
    rewrite (fprintf_plain o P o' FP). split; [rewrite !plain_app; auto using edge_plain|].
    exists (ss ++ Arrow id (hex n) :: s2). split; [cbn [map]; apply ad_last; assumption|]. apply statements_app; [exact T|]. apply edge_statements; assumption.
Qed.

(** ** The characters of separators *)
Lemma harmless_fine s : harmless s -> fine s.
Proof. apply Forall_impl. intros c [_ H]. exact H. Qed.
Lemma pieces_fine xs s : comma_list xs s -> fine s -> Forall fine xs.
Proof. induction 1 as [x _|x xs s _ C IH]; intros F; [constructor; [exact F|constructor]|]. rewrite !fine_app in F. constructor; tauto. Qed.
Lemma stands_fine xs rs : Forall2 stands_for xs rs -> Forall fine xs -> fine rs.
Proof.
  induction 1 as [|x r xs rs W _ IH]; intros F; [constructor|]. inversion F as [|? ? F1 F2]; subst. constructor; [|apply IH, F2]. destruct W; [apply encode_fine_inv, F1| |]; apply ok_big; vm_compute; discriminate.
Qed.
Lemma globs_clean p seps m : Forall (fun b => 0 < b)%Z p -> fine p -> fine seps -> Globs p seps m -> clean m.
Proof. intros B F S' [t [fuel [P C]]]. apply (compile_f_clean seps S' fuel t m); [|exact C]. apply (pattern_clean t p); [apply C44_exact; assumption|exact F]. Qed.

(** ** C72 *)
(** What globdraw writes for a pattern and separators without percent signs, quotes and backslashes is a DOT graph: its title is the pattern, and
    its vertices and arrows draw the compiled glob's tree. *)
Theorem C72_drawing pattern sep out : harmless pattern -> harmless sep -> globdraw_prints pattern sep out ->
  exists m id ss, globdraw pattern sep (inr m) /\ drawn (tree_of m) id ss /\ dot pattern ss out.
Proof.
  intros HP HS [m [G V]]. exists m.
  assert (BP : Forall (fun b => 0 < b)%Z pattern) by (revert HP; apply Forall_impl; intros c [? _]; lia). assert (BS : GlobGram.bytes sep) by (revert HS; apply Forall_impl; intros c [? _]; lia).
  destruct (C71_pieces sep) as [pieces [CP _]].
  assert (C : clean m).
  { destruct (C71_globdraw pattern sep pieces _ BS CP G) as [[_ E]|[[_ [_ [_ E]]]|[[_ [_ E]]|[[m' [_ [_ [GL E]]]]|[seps [m' [_ [_ [ST [GL E]]]]]]]]]]; try discriminate E; injection E as <-.
    - apply (globs_clean pattern []); [exact BP|apply harmless_fine, HP|constructor|exact GL].
    - apply (globs_clean pattern seps); [exact BP|apply harmless_fine, HP|apply (stands_fine pieces); [exact ST|apply (pieces_fine pieces sep CP), harmless_fine, HS]|exact GL]. }
  destruct V as [n o N D]. destruct (proj1 drawing_drawn m _ o D C (hex_fine n)) as [_ [ss [DR ST]]]. exists (hex n), ss. split; [exact G|]. split; [exact DR|].
  apply dot_of; [apply fine_quotable, harmless_fine, HP|exact ST].
Qed.
Print Assumptions C72_drawing.

(** A DOT text is that of one graph only. *)
Lemma quoted_inj a b x y : quotable a -> quotable b -> a ++ quote :: x = b ++ quote :: y -> a = b /\ x = y.
Proof.
  intros A. revert b. induction A as [|c s Q B A IH|c s A IH]; intros b Bq E.
  - destruct Bq as [|c s Q B Bs|c s Bs]; cbn [app] in E; injection E; intros; [subst; split; reflexivity|exfalso; apply Q; congruence|exfalso; discriminate].
  - destruct Bq as [|c' s' Q' B' A'|c' s' A']; cbn [app] in E; injection E as E1 E2; [exfalso; apply Q; congruence| |exfalso; apply B; congruence].
    destruct (IH s' A' E2) as [-> ->]. rewrite E1. split; reflexivity.
  - destruct Bq as [|c' s' Q' B' A'|c' s' A']; cbn [app] in E; [discriminate E|injection E as E1 E2; exfalso; apply B'; congruence|]. injection E as E1 E2.
    destruct (IH s' A' E2) as [-> ->]. rewrite E1. split; reflexivity.
Qed.
Lemma statements_unique ss s : statements ss s -> forall ss', statements ss' s -> ss' = ss.
Proof.
  induction 1 as [|id label ss s Q1 Q2 _ IH|a b ss s Q1 Q2 _ IH]; intros ss' T; match type of T with statements _ ?x => remember x as w eqn:E in T end;
    destruct T as [|id' label' ss0 s0 Q1' Q2' T'|a' b' ss0 s0 Q1' Q2' T']; try discriminate E; try reflexivity;
    unfold quoted in E; rewrite <- !app_assoc in E; injection E as E; apply quoted_inj in E; try assumption; destruct E as [-> E]; try discriminate E.
  - injection E as E. apply quoted_inj in E; [|assumption..]. destruct E as [-> E]. injection E as ->. f_equal. auto.
  - injection E as E. apply quoted_inj in E; [|assumption..]. destruct E as [-> E]. injection E as ->. f_equal. auto.
Qed.
Theorem C72_one_graph title ss title' ss' text : dot title ss text -> dot title' ss' text -> title' = title /\ ss' = ss.
Proof.
  intros [Q [s [T E]]] [Q' [s' [T' E']]]. rewrite E in E'. apply app_inv_head in E'. unfold quoted in E'. rewrite <- !app_assoc in E'. injection E' as E'. apply quoted_inj in E'; [|assumption..]. destruct E' as [-> E'].
  split; [reflexivity|]. injection E' as E'. apply app_inv_tail in E'. subst s'. apply (statements_unique ss s); assumption.
Qed.
Print Assumptions C72_one_graph.

(** From a graph whose vertices all have different names, the tree can be read back, and no other. *)
Lemma vertices_app a b : vertices (a ++ b) = vertices a ++ vertices b.
Proof. induction a as [|[|] a IH]; cbn [vertices app]; rewrite ?IH; reflexivity. Qed.
Lemma targets_app a b i : targets (a ++ b) i = targets a i ++ targets b i.
Proof. induction a as [|[|] a IH]; cbn [targets app]; [reflexivity|exact IH|]. destruct (list_eq_dec Z.eq_dec from i); rewrite IH; reflexivity. Qed.
Lemma vertex_in ss i l : In (Vertex i l) ss -> In i (vertices ss).
Proof. induction ss as [|[j k|] ss IH]; cbn [vertices]; [tauto| |]; (intros [E|H]; [first [injection E as -> _; left; reflexivity|discriminate E]|first [right; apply IH, H|apply IH, H]]). Qed.
Scheme dr_mut := Induction for drawn Sort Prop with ad_mut := Induction for all_drawn Sort Prop.
Combined Scheme drawn_ind2 from dr_mut, ad_mut.
Lemma drawn_root t id ss : drawn t id ss -> In id (vertices ss).
Proof. destruct 1. left. reflexivity. Qed.
(** No arrow starts outside the vertices drawn. *)
Lemma drawn_closed : (forall t id ss, drawn t id ss -> forall j, ~ In j (vertices ss) -> targets ss j = [])
  /\ (forall id ts ss, all_drawn id ts ss -> forall j, j <> id -> ~ In j (vertices ss) -> targets ss j = []).
Proof.
  apply drawn_ind2; intros; cbn [targets vertices] in *.
  - apply H; [intros ->; apply H0; left; reflexivity|intros I; apply H0; right; exact I].
  - reflexivity.
  - rewrite vertices_app, in_app_iff in H2. destruct (list_eq_dec Z.eq_dec id j); [congruence|]. rewrite targets_app, H, H0 by tauto. reflexivity.
  - rewrite vertices_app in H2. cbn [vertices] in H2. rewrite in_app_iff in H2. rewrite targets_app. cbn [targets]. destruct (list_eq_dec Z.eq_dec id j); [congruence|]. rewrite H, H0 by tauto. reflexivity.
Qed.
Lemma nodup_apart {A} (a b : list A) : NoDup (a ++ b) -> NoDup a /\ NoDup b /\ (forall x, In x a -> ~ In x b).
Proof.
  induction a as [|x a IH]; cbn [app]; intros N; [repeat split; [constructor|exact N|intros y []]|]. inversion N as [|? ? I N']; subst. destruct (IH N') as [A1 [A2 A3]]. rewrite in_app_iff in I.
  repeat split; [constructor; tauto|exact A2|]. intros y [<-|Y]; [tauto|apply A3, Y].
Qed.
Lemma drawn_shows : (forall t id ss, drawn t id ss -> forall G, NoDup (vertices ss) -> incl ss G -> (forall j, In j (vertices ss) -> targets G j = targets ss j) -> shows G id t)
  /\ (forall id ts ss, all_drawn id ts ss -> forall G, NoDup (vertices ss) -> ~ In id (vertices ss) -> incl ss G -> (forall j, In j (vertices ss) -> targets G j = targets ss j) -> Forall2 (shows G) (targets ss id) ts).
Proof.
  apply drawn_ind2.
  - intros label ts id ss _ IH G N I T. cbn [vertices] in *. inversion N as [|? ? N1 N2]; subst. constructor; [apply I; left; reflexivity|]. rewrite T by (left; reflexivity). cbn [targets].
    apply IH; [exact N2|exact N1|intros x X; apply I; right; exact X|]. intros j J. rewrite T by (right; exact J). reflexivity.
  - intros id G _ _ _ _. constructor.
  - intros id t ts c sub ss D IHd A IHa G N O I T. cbn [vertices targets] in *. rewrite vertices_app in *. rewrite in_app_iff in O. destruct (nodup_apart _ _ N) as [N1 [N2 N3]].
    destruct (list_eq_dec Z.eq_dec id id) as [_|X]; [|congruence]. rewrite targets_app, (proj1 drawn_closed _ _ _ D id) by tauto. cbn [app].
    assert (TA : forall j, In j (vertices sub ++ vertices ss) -> targets G j = targets sub j ++ targets ss j).
    { intros j J. rewrite T by exact J. destruct (list_eq_dec Z.eq_dec id j) as [<-|]; [rewrite in_app_iff in J; tauto|apply targets_app]. }
    constructor.
    + apply IHd; [exact N1|intros x X; apply I; right; apply in_app_iff; left; exact X|]. intros j J. rewrite TA by (apply in_app_iff; tauto). rewrite (proj2 drawn_closed _ _ _ A j); [apply app_nil_r|intros ->; tauto|apply N3, J].
    + apply IHa; [exact N2|tauto|intros x X; apply I; right; apply in_app_iff; right; exact X|]. intros j J. rewrite TA by (apply in_app_iff; tauto). rewrite (proj1 drawn_closed _ _ _ D j); [reflexivity|intros X; exact (N3 j X J)].
  - intros id t ts c sub ss D IHd A IHa G N O I T. rewrite vertices_app in *. cbn [vertices] in *. rewrite in_app_iff in O. destruct (nodup_apart _ _ N) as [N1 [N2 N3]].
    rewrite targets_app. cbn [targets]. destruct (list_eq_dec Z.eq_dec id id) as [_|X]; [|congruence]. rewrite (proj1 drawn_closed _ _ _ D id) by tauto. cbn [app].
    assert (TA : forall j, In j (vertices sub ++ vertices ss) -> targets G j = targets sub j ++ targets ss j).
    { intros j J. rewrite T by exact J. rewrite targets_app. cbn [targets]. destruct (list_eq_dec Z.eq_dec id j) as [<-|]; [rewrite in_app_iff in J; tauto|reflexivity]. }
    constructor.
    + apply IHd; [exact N1|intros x X; apply I; apply in_app_iff; left; exact X|]. intros j J. rewrite TA by (apply in_app_iff; tauto). rewrite (proj2 drawn_closed _ _ _ A j); [apply app_nil_r|intros ->; tauto|apply N3, J].
    + apply IHa; [exact N2|tauto|intros x X; apply I; apply in_app_iff; right; right; exact X|]. intros j J. rewrite TA by (apply in_app_iff; tauto). rewrite (proj1 drawn_closed _ _ _ D j); [reflexivity|intros X; exact (N3 j X J)].
Qed.
Lemma one_label ss i a b : NoDup (vertices ss) -> In (Vertex i a) ss -> In (Vertex i b) ss -> a = b.
Proof.
  induction ss as [|[j k|] ss IH]; cbn [vertices]; intros N A B; [destruct A|..].
  - inversion N as [|? ? N1 N2]; subst. destruct A as [A|A], B as [B|B]; try congruence; [injection A as -> ->; destruct N1; apply (vertex_in _ _ _ B)|injection B as -> ->; destruct N1; apply (vertex_in _ _ _ A)|exact (IH N2 A B)].
  - destruct A as [A|A]; [discriminate A|]. destruct B as [B|B]; [discriminate B|]. exact (IH N A B).
Qed.
Lemma shows_one ss : NoDup (vertices ss) -> forall t i t', shows ss i t -> shows ss i t' -> t' = t.
Proof.
  intros N. fix IH 1. intros [label ts] i t' A B. inversion A as [? ? ? LA FA]; subst. inversion B as [? label' ts' LB FB]; subst. rewrite (one_label ss i label' label N LB LA). f_equal.
  clear A B LA LB. revert ts' FB. generalize (targets ss i) as js, FA. clear FA. 
  induction ts as [|t ts IHt]; intros js FA ts' FB.
  - inversion FA; subst. inversion FB; reflexivity.
  - inversion FA as [|j ? js' ? A1 A2]; subst. inversion FB as [|? t2 ? ts2 B1 B2]; subst. f_equal; [exact (IH t j t2 A1 B1)|exact (IHt js' A2 ts2 B2)].
Qed.
Theorem C72_tree_read t id ss t' : drawn t id ss -> NoDup (vertices ss) -> (shows ss id t' <-> t' = t).
Proof.
  intros D N. assert (H : shows ss id t) by (apply (proj1 drawn_shows t id ss D ss N); [intros x X; exact X|reflexivity]). split; [intros H'; apply (shows_one ss N t id t' H H')|intros ->; exact H].
Qed.
Print Assumptions C72_tree_read.

(** Once the arguments are accepted, something is drawn, whatever the pattern. *)
Lemma fprintf_total n : forall o, length o <= n -> exists o', Fprintf0 o o'.
Proof.
  induction n as [|n IH]; intros o L; [destruct o; [exists []; constructor|cbn in L; lia]|]. destruct o as [|c o]; [exists []; constructor|]. cbn [length] in L.
  destruct (Z.eq_dec c percent) as [->|NE]; [|destruct (IH o ltac:(lia)) as [o' H]; exists (c :: o'); constructor; assumption].
  destruct o as [|d o]; [eexists; apply fp_noverb|]. cbn [length] in L. destruct (IH o ltac:(lia)) as [o' H]. destruct (Z.eq_dec d percent) as [->|NE]; [eexists; apply fp_percent; exact H|].
  destruct (continues_verb d) eqn:V; [exists []; apply fp_other, V|eexists; apply fp_missing; eassumption].
Qed.
Lemma graphviz_total m : forall id, exists o, graphviz m id o.
Proof.
  induction m as [m IH] using part_ind. intros id.
  assert (SD : forall x, (forall y, x = Some y -> part m y) -> exists o, side id x o).
  { intros [y|] P; [|eexists; apply (sd_nil id 0); reflexivity]. destruct (IH y (P y eq_refl) (hex 0)) as [o G]. destruct (fprintf_total _ o (le_n _)) as [o' F]. eexists. apply (sd_some id y 0 o o'); [reflexivity|exact G|exact F]. }
  assert (PT : forall ms, (forall y, In y ms -> part m y) -> exists o, parts id ms o).
  { induction ms as [|y ms IHm]; intros P; [eexists; constructor|]. destruct (IHm ltac:(intros z Z; apply P; right; exact Z)) as [os OS]. destruct (IH y (P y ltac:(left; reflexivity)) (hex 0)) as [o G].
    destruct (fprintf_total _ o (le_n _)) as [o' F]. eexists. apply (pt_more id y ms 0 o o' os); [reflexivity|exact G|exact F|exact OS]. }
  destruct m; try (eexists; apply gz_other; exact I).
  - destruct (PT ms ltac:(intros y Y; exact Y)) as [o P]. eexists. constructor. exact P.
  - destruct (PT ms ltac:(intros y Y; exact Y)) as [o P]. eexists. constructor. exact P.
  - destruct (SD left ltac:(intros y ->; right; left; reflexivity)) as [o1 P1]. destruct (SD right ltac:(intros y ->; right; right; reflexivity)) as [o2 P2]. eexists. constructor; eassumption.
Qed.
Theorem C72_draws pattern sep m : globdraw pattern sep (inr m) -> exists out, globdraw_prints pattern sep out.
Proof. intros G. destruct (graphviz_total m (hex 0)) as [o H]. eexists. exists m. split; [exact G|]. apply (gv pattern m 0 o); [reflexivity|exact H]. Qed.
Print Assumptions C72_draws.

(** With a percent sign in a part of the pattern the drawing shows another tree: the part is used as a format. *)
Lemma fprintf_app a s o : plain a -> Fprintf0 (a ++ s) o -> exists o2, Fprintf0 s o2 /\ o = a ++ o2.
Proof.
  revert o. induction a as [|c a IH]; intros o P F; [exists o; split; [exact F|reflexivity]|]. inversion P as [|? ? N P']; subst. cbn [app] in F.
  inversion F; subst; try (exfalso; apply N; reflexivity). destruct (IH _ P' ltac:(eassumption)) as [o2 [F2 ->]]. exists o2. split; [exact F2|reflexivity].
Qed.
Lemma drawn_child label t ts id ss : drawn (Fork label (t :: ts)) id ss -> exists c sub, drawn t c sub /\ incl sub ss.
Proof.
  intros D. inversion D as [? ? ? s A]; subst. inversion A; subst; exists c, sub; (split; [assumption|]); intros x X; right; [right|]; apply in_app_iff; left; exact X.
Qed.
Definition percent_pattern : str := lit "{%d,a*}".
Lemma percent_globs m : globdraw percent_pattern [] (inr m) -> m = MAnyOf [MText (lit "%d"); MPrefix (lit "a")].
Proof.
  intros G. inversion G as [| | |seps m' NE DS GL]; subst. injection DS as <-.
  destruct (C47_glob_unique percent_pattern [] (NPattern [NAnyOf [NPattern [NText (lit "%d")]; NPattern [NText (lit "a"); NAny]]]) ltac:(vm_compute; reflexivity)) as [m0 [_ U]].
  rewrite (U m GL). symmetry. apply U. eexists. exists 50. split; [vm_compute; reflexivity|vm_compute; reflexivity].
Qed.
Theorem C72_percent_refuted : exists pattern sep, (exists out, globdraw_prints pattern sep out)
  /\ forall out, globdraw_prints pattern sep out -> ~ exists m id ss, globdraw pattern sep (inr m) /\ drawn (tree_of m) id ss /\ dot pattern ss out.
Proof.
  exists percent_pattern, []. split.
  - apply (C72_draws _ _ (MAnyOf [MText (lit "%d"); MPrefix (lit "a")])). apply (gd_draw _ _ []); [discriminate|reflexivity|]. eexists. exists 50. split; [vm_compute; reflexivity|vm_compute; reflexivity].
  - intros out [m [G V]] [m2 [id2 [ss2 [G2 [D2 T2]]]]]. apply percent_globs in G. apply percent_globs in G2. subst m m2. inversion V as [n o N GV]; subst. clear V N.
    inversion GV as [|ms ? o1 P1| |? ? K]; subst; [|destruct K]. clear GV. inversion P1 as [|? ? ? n1 a a' os _ GA FA P2]; subst. clear P1. inversion P2 as [|? ? ? n2 b b' os2 _ GB FB P3]; subst. clear P2. inversion P3; subst. clear P3.
    inversion GA; subst. inversion GB; subst. clear GA GB. pose proof (hex_fine n) as F0. pose proof (hex_fine n1) as F1. pose proof (hex_fine n2) as F2.
    rewrite (fprintf_plain _ (node_plain _ (String_ (MPrefix (lit "a"))) F2 ltac:(change (fine (lit "<prefix:a>")); apply fine_lit; reflexivity)) _ FB) in T2. clear FB.
    assert (EA : a' = node_text (hex n1) (lit "<text:`%!d(MISSING)`>")).
    { change (node_text (hex n1) (String_ (MText (lit "%d")))) with (dq ++ hex n1 ++ dq ++ lit "[label=" ++ dq ++ lit "<text:`" ++ lit "%d`>" ++ dq ++ lit "];") in FA.
      replace (dq ++ hex n1 ++ dq ++ lit "[label=" ++ dq ++ lit "<text:`" ++ lit "%d`>" ++ dq ++ lit "];") with ((dq ++ hex n1 ++ dq ++ lit "[label=" ++ dq ++ lit "<text:`") ++ percent :: 100%Z :: lit "`>" ++ dq ++ lit "];") in FA by (rewrite <- !app_assoc; reflexivity).
      apply fprintf_app in FA; [|rewrite !plain_app; repeat split; try (apply fine_plain; exact F1); apply plainb_plain; reflexivity]. destruct FA as [o2 [FA ->]].
      inversion FA; subst; try congruence; try discriminate. match goal with H : Fprintf0 _ ?o |- _ => apply fprintf_plain in H; [subst o|apply plainb_plain; reflexivity] end. unfold node_text. rewrite <- !app_assoc. reflexivity. }
    subst a'. clear FA.
    set (ss := [Vertex (hex n) (lit "AnyOf"); Vertex (hex n1) (lit "<text:`%!d(MISSING)`>"); Arrow (hex n) (hex n1); Vertex (hex n2) (lit "<prefix:a>"); Arrow (hex n) (hex n2)]).
    assert (T : dot percent_pattern ss (lit "digraph G {graph[label=" ++ dq ++ percent_pattern ++ dq ++ lit "];" ++ (node_text (hex n) (lit "AnyOf") ++ node_text (hex n1) (lit "<text:`%!d(MISSING)`>") ++ edge_text (hex n) (hex n1)
      ++ node_text (hex n2) (String_ (MPrefix (lit "a"))) ++ edge_text (hex n) (hex n2) ++ []) ++ lit "}")).
    { apply dot_of; [repeat first [apply qu_nil|apply qu_char; [discriminate..|]]|].
      apply node_statements; [exact F0|apply fine_lit; reflexivity|].
      assert (Q : quotable (lit "<text:`%!d(MISSING)`>")) by (repeat first [apply qu_nil|apply qu_char; [discriminate..|]]).
      match goal with |- statements (_ :: ?r) (_ ++ ?t) => assert (R : statements r t) end.
      { apply edge_statements; [assumption..|]. apply node_statements; [assumption|change (fine (lit "<prefix:a>")); apply fine_lit; reflexivity|]. apply edge_statements; [assumption..|constructor]. }
      pose proof (st_vertex (hex n1) (lit "<text:`%!d(MISSING)`>") _ _ (fine_quotable _ F1) Q R) as HV. unfold node_text, quoted, dq, quote in *. rewrite <- !app_assoc in *. exact HV. }
    destruct (C72_one_graph _ _ _ _ _ T T2) as [_ ->]. destruct (drawn_child _ _ _ _ _ D2) as [c [sub [DC I]]]. inversion DC as [lb ts ? s A]; subst. specialize (I _ (or_introl eq_refl)).
    cbn in I. repeat (destruct I as [I|I]; [discriminate I|]). exact I.
Qed.
Print Assumptions C72_percent_refuted.
(** With a double quote in the pattern the text is no DOT graph at all. *)
Theorem C72_quote_refuted : exists pattern sep, (exists out, globdraw_prints pattern sep out) /\ forall out, globdraw_prints pattern sep out -> forall title ss, ~ dot title ss out.
Proof.
  exists (lit "a" ++ [quote] ++ lit "b"), []. split.
  - apply (C72_draws _ _ (MText (lit "a" ++ [quote] ++ lit "b"))). apply (gd_draw _ _ []); [discriminate|reflexivity|]. eexists. exists 50. split; [vm_compute; reflexivity|vm_compute; reflexivity].
  - intros out [m [_ V]] title ss [Q [s [_ E]]]. destruct V as [n o _ _]. apply app_inv_head in E. unfold quoted in E. rewrite <- !app_assoc in E. injection E as E.
    change (97%Z :: quote :: 98%Z :: dq ++ lit "];" ++ o ++ lit "}") with (lit "a" ++ quote :: 98%Z :: dq ++ lit "];" ++ o ++ lit "}") in E. change (title ++ quote :: lit "];" ++ s ++ lit "}") with (title ++ quote :: (lit "];" ++ s ++ lit "}")) in E.
    apply (quoted_inj (lit "a") title) in E; [destruct E as [_ E]; discriminate E|apply qu_char; [discriminate..|constructor]|exact Q].
Qed.
Print Assumptions C72_quote_refuted.

(** Non-vacuity: a search tree with a missing left part below alternatives. *)
Example C72_case : harmless (lit "{a*b,[cd]*}") /\ harmless (lit "/")
  /\ globdraw (lit "{a*b,[cd]*}") [] (inr (MAnyOf [MPrefixSuffix (lit "a") (lit "b"); MBTree (MList [99; 100]%Z false) None (Some MSuper) 0 (-1) (-1)]))
  /\ globdraw_prints (lit "{a*b,[cd]*}") [] (lit "digraph G {graph[label=""{a*b,[cd]*}""];""1""[label=""AnyOf""];""2""[label=""<prefix_suffix:[a,b]>""];""1""->""2"";" ++ lit """3""[label=""<list:[cd]>""];""1f""[label=""<nil>""];""3""->""1f"";""3""->""4"";""4""[label=""<super>""];""1""->""3"";}").
Proof.
  assert (G : globdraw (lit "{a*b,[cd]*}") [] (inr (MAnyOf [MPrefixSuffix (lit "a") (lit "b"); MBTree (MList [99; 100]%Z false) None (Some MSuper) 0 (-1) (-1)])))
    by (apply (gd_draw _ _ []); [discriminate|reflexivity|eexists; exists 50; split; [vm_compute; reflexivity|vm_compute; reflexivity]]).
  split; [repeat constructor; discriminate|]. split; [repeat constructor; discriminate|]. split; [exact G|]. eexists. split; [exact G|].
  assert (PF : forall s, plainb s = true -> Fprintf0 s s) by (induction s as [|c s IH]; intros B; [constructor|]; cbn [plainb forallb] in B; apply andb_true_iff in B; destruct B as [B1 B2]; constructor; [apply negb_true_iff, Z.eqb_neq in B1; exact B1|apply IH, B2]).
  match goal with |- Graphviz ?p ?m ?w => assert (W : exists out, Graphviz p m out /\ out = w); [|destruct W as [out [W <-]]; exact W] end. eexists. split; [|].
  - apply (gv _ _ 1); [reflexivity|]. apply gz_anyof. eapply (pt_more _ _ _ 2); [reflexivity|apply gz_other; exact I|apply PF; reflexivity|]. eapply (pt_more _ _ _ 3); [reflexivity| |apply PF|constructor].
    + apply gz_btree; [apply (sd_nil _ 31); reflexivity|]. eapply (sd_some _ _ 4); [reflexivity|apply gz_other; exact I|apply PF; reflexivity].
    + reflexivity.
  - vm_compute. reflexivity.
Qed.
