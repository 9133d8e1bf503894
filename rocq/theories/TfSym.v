(** * Symbolic execution of straight-line bodies, with a soundness theorem.
    Proof machinery only: nothing here models Go code. *)
From Coq Require Import ZArith List Bool Lia.
From Verif Require Import TfLang TfSpec.
Import ListNotations.
Open Scope Z_scope.

Inductive sexpr :=
| SV (v : var) | SC (c : Z)
| SX (a b : sexpr) | SRl (n : Z) (a : sexpr) | SRr (n : Z) (a : sexpr)
| SSum (l : sexpr)
| SNil | SCons (neg : bool) (a rest : sexpr).

Fixpoint den (r : env) (e : sexpr) : Z :=
  match e with
  | SV v => r v
  | SC c => wrap c
  | SX a b => Z.lxor (den r a) (den r b)
  | SRl n a => wor (wshl (den r a) n) (wshr (den r a) (64 - n))
  | SRr n a => wor (wshr (den r a) n) (wshl (den r a) (64 - n))
  | SSum l => wrap (den r l)
  | SNil => 0
  | SCons neg a rest => (if neg then - den r a else den r a) + den r rest
  end.

Definition vtag (v : var) : Z * nat :=
  match v with
  | B i => (0, i) | K i => (1, i) | T i => (2, i) | Tmp => (3, 0%nat)
  | In i => (4, i) | Out i => (5, i) | XK i => (6, i) | XT i => (7, i)
  end.
Definition vcmp (u v : var) : comparison :=
  let (a, i) := vtag u in let (b, j) := vtag v in
  match a ?= b with Eq => Nat.compare i j | c => c end.
Definition stag (e : sexpr) : Z :=
  match e with SV _ => 0 | SC _ => 1 | SX _ _ => 2 | SRl _ _ => 3 | SRr _ _ => 4
             | SSum _ => 5 | SNil => 6 | SCons _ _ _ => 7 end.
Fixpoint scmp (x y : sexpr) : comparison :=
  match x, y with
  | SV u, SV v => vcmp u v
  | SC a, SC b => a ?= b
  | SX a b, SX c d => match scmp a c with Eq => scmp b d | o => o end
  | SRl n a, SRl m b => match n ?= m with Eq => scmp a b | o => o end
  | SRr n a, SRr m b => match n ?= m with Eq => scmp a b | o => o end
  | SSum a, SSum b => scmp a b
  | SNil, SNil => Eq
  | SCons n a r, SCons m b s =>
      match n, m with
      | true, false => Gt | false, true => Lt
      | _, _ => match scmp a b with Eq => scmp r s | o => o end
      end
  | _, _ => stag x ?= stag y
  end.

Fixpoint seqb (x y : sexpr) : bool :=
  match x, y with
  | SV u, SV v => var_eqb u v
  | SC a, SC b => a =? b
  | SX a b, SX c d => seqb a c && seqb b d
  | SRl n a, SRl m b => (n =? m) && seqb a b
  | SRr n a, SRr m b => (n =? m) && seqb a b
  | SSum a, SSum b => seqb a b
  | SNil, SNil => true
  | SCons n a r, SCons m b s => Bool.eqb n m && seqb a b && seqb r s
  | _, _ => false
  end.

Lemma var_eqb_eq u v : var_eqb u v = true -> u = v.
Proof.
  destruct u, v; simpl; intros H; try discriminate; try reflexivity;
    apply Nat.eqb_eq in H; congruence.
Qed.
Lemma var_eqb_refl v : var_eqb v v = true.
Proof. destruct v; simpl; auto using Nat.eqb_refl. Qed.

Lemma seqb_eq x : forall y, seqb x y = true -> x = y.
Proof.
  induction x; destruct y; simpl; intros H; try discriminate; auto;
    repeat (apply andb_prop in H; destruct H as [H ?]);
    repeat match goal with
           | Hz : (_ =? _) = true |- _ => apply Z.eqb_eq in Hz
           | Hv : var_eqb _ _ = true |- _ => apply var_eqb_eq in Hv
           | Hb : Bool.eqb _ _ = true |- _ => apply Bool.eqb_prop in Hb
           end; subst; f_equal; auto.
Qed.

Fixpoint insert (n : bool) (a l : sexpr) : sexpr :=
  match l with
  | SCons m b r =>
      match (if Bool.eqb n m then scmp a b else if n then Gt else Lt) with
      | Gt => SCons m b (insert n a r)
      | _ => SCons n a l
      end
  | _ => SCons n a l
  end.
Fixpoint merge (x y : sexpr) : option sexpr :=
  match x with
  | SNil => Some y
  | SCons n a r => match merge r y with Some z => Some (insert n a z) | None => None end
  | _ => None
  end.
Fixpoint negl (x : sexpr) : sexpr :=
  match x with SCons n a r => SCons (negb n) a (negl r) | _ => SNil end.
Fixpoint islist (x : sexpr) : bool :=
  match x with SNil => true | SCons _ _ r => islist r | _ => false end.
Definition terms (e : sexpr) : sexpr :=
  match e with
  | SSum l => l
  | SC 0 => SNil
  | _ => SCons false e SNil
  end.
Definition bad : sexpr := SNil.
(* Sums are kept as sorted lists.  When an argument is not in that shape (never in practice)
   the smart constructors fall back to the plain two-element sum, so they are total and exact. *)
Definition sadd (a b : sexpr) : sexpr :=
  match merge (terms a) (terms b) with
  | Some l => SSum l
  | None => SSum (SCons false a (SCons false b SNil))
  end.
Definition ssub (a b : sexpr) : sexpr :=
  if islist (terms b) then
    match merge (terms a) (negl (terms b)) with
    | Some l => SSum l
    | None => SSum (SCons false a (SCons true b SNil))
    end
  else SSum (SCons false a (SCons true b SNil)).

Lemma insert_den r n a l : den r (insert n a l) = (if n then - den r a else den r a) + den r l.
Proof.
  induction l; simpl; try reflexivity.
  destruct (if Bool.eqb n neg then scmp a l1 else if n then Gt else Lt); simpl; try reflexivity.
  rewrite IHl2. lia.
Qed.
Lemma merge_den r x : forall y z, merge x y = Some z -> den r z = den r x + den r y.
Proof.
  induction x; simpl; intros y z H; try discriminate.
  - inversion H; subst; lia.
  - destruct (merge x2 y) eqn:E; [|discriminate]. inversion H; subst.
    rewrite insert_den, (IHx2 _ _ E). lia.
Qed.
Lemma negl_den r x : islist x = true -> den r (negl x) = - den r x.
Proof.
  induction x; simpl; intros H; try discriminate; [reflexivity|].
  rewrite (IHx2 H). destruct neg; simpl; lia.
Qed.

Lemma wrap_mod x : wrap x = x mod W64. Proof. reflexivity. Qed.
Lemma W64_pos : 0 < W64. Proof. reflexivity. Qed.

Lemma terms_den r e : den r e mod W64 = den r (terms e) mod W64.
Proof.
  destruct e; simpl; rewrite ?Z.add_0_r; try reflexivity.
  - destruct c; simpl; rewrite ?Z.add_0_r; reflexivity.
  - unfold wrap. rewrite Z.mod_mod by (pose proof W64_pos; lia). reflexivity.
Qed.

Lemma sadd_den r a b : den r (sadd a b) = wadd (den r a) (den r b).
Proof.
  unfold sadd, wadd, wrap.
  assert (HW : W64 <> 0) by (pose proof W64_pos; lia).
  destruct (merge (terms a) (terms b)) eqn:E; simpl; unfold wrap.
  - rewrite (merge_den r _ _ _ E).
    rewrite Z.add_mod, <- !terms_den, <- Z.add_mod by assumption. reflexivity.
  - f_equal; lia.
Qed.
Lemma ssub_den r a b : den r (ssub a b) = wsub (den r a) (den r b).
Proof.
  unfold ssub, wsub, wrap.
  assert (HW : W64 <> 0) by (pose proof W64_pos; lia).
  destruct (islist (terms b)) eqn:I.
  - destruct (merge (terms a) (negl (terms b))) eqn:E; simpl; unfold wrap.
    + rewrite (merge_den r _ _ _ E), negl_den by assumption.
      change (den r (terms a) + - den r (terms b)) with (den r (terms a) - den r (terms b)).
      rewrite Zminus_mod, <- !terms_den, <- Zminus_mod. reflexivity.
    + f_equal; lia.
  - simpl; unfold wrap; f_equal; lia.
Qed.

(** Symbolic expression evaluation; [None] when the expression is outside the recognised shape. *)
Definition senv := var -> sexpr.
Fixpoint seval (s : senv) (e : expr) : option sexpr :=
  match e with
  | EV v => Some (s v)
  | EC c => Some (SC c)
  | EAdd a b => match seval s a, seval s b with
                | Some x, Some y => Some (sadd x y) | _, _ => None end
  | EXor a b => match seval s a, seval s b with
                | Some x, Some y => Some (SX x y) | _, _ => None end
  | EOr (EShl a n) (EShr b m) =>
      match seval s a, seval s b with
      | Some x, Some y => if seqb x y && (m =? 64 - n) then Some (SRl n x) else None
      | _, _ => None end
  | EOr (EShr a n) (EShl b m) =>
      match seval s a, seval s b with
      | Some x, Some y => if seqb x y && (m =? 64 - n) then Some (SRr n x) else None
      | _, _ => None end
  | _ => None
  end.

Lemma seval_sound r s e x :
  seval s e = Some x -> eval (fun v => den r (s v)) e = den r x.
Proof.
  revert x.
  assert (G : forall e, (forall x, seval s e = Some x -> eval (fun v => den r (s v)) e = den r x)
              /\ (forall a n, e = EShl a n \/ e = EShr a n ->
                   forall x, seval s a = Some x -> eval (fun v => den r (s v)) a = den r x)).
  2:{ intros x. apply G. }
  clear e. induction e as [v|c|a IHa b IHb|a IHa b IHb|a IHa b IHb|a IHa n|a IHa n]; split;
    try (intros a0 n0 [E|E]; discriminate E);
    try (intros a0 n0 [E|E]; inversion E; subst; intros x Hx; apply IHa; exact Hx);
    simpl; intros x H; try discriminate.
  - now inversion H.
  - now inversion H.
  - destruct (seval s a); [|discriminate]; destruct (seval s b); [|discriminate].
    inversion H; subst. rewrite sadd_den. f_equal; [apply IHa | apply IHb]; reflexivity.
  - destruct (seval s a); [|discriminate]; destruct (seval s b); [|discriminate].
    inversion H; subst. simpl. unfold wxor. f_equal; [apply IHa | apply IHb]; reflexivity.
  - destruct a; try discriminate; destruct b; try discriminate;
      destruct (seval s a) eqn:Ea; try discriminate; destruct (seval s b) eqn:Eb; try discriminate;
      match goal with H : (if ?c then _ else _) = _ |- _ => destruct c eqn:C end; try discriminate;
      apply andb_prop in C; destruct C as [C1 C2]; apply seqb_eq in C1; apply Z.eqb_eq in C2;
      inversion H; subst; simpl.
    + rewrite (proj2 IHa _ _ (or_introl eq_refl) _ Ea).
      rewrite (proj2 IHb _ _ (or_intror eq_refl) _ Eb). reflexivity.
    + rewrite (proj2 IHa _ _ (or_intror eq_refl) _ Ea).
      rewrite (proj2 IHb _ _ (or_introl eq_refl) _ Eb). reflexivity.
Qed.

Definition supd (s : senv) (v : var) (x : sexpr) : senv :=
  fun u => if var_eqb u v then x else s u.
Definition sexec1 (s : senv) (c : stmt) : option senv :=
  match c with
  | Assign v e => match seval s e with Some x => Some (supd s v x) | None => None end
  | AddAssign v e => match seval s e with Some x => Some (supd s v (sadd (s v) x)) | None => None end
  | SubAssign v e => match seval s e with Some x => Some (supd s v (ssub (s v) x)) | None => None end
  end.
Fixpoint sexec (p : list stmt) (s : senv) : option senv :=
  match p with
  | [] => Some s
  | c :: p' => match sexec1 s c with Some s' => sexec p' s' | None => None end
  end.

Lemma eval_ext r r' e : (forall v, r v = r' v) -> eval r e = eval r' e.
Proof. intros H. induction e; simpl; congruence. Qed.
Lemma exec1_ext r r' c : (forall v, r v = r' v) -> forall v, exec1 r c v = exec1 r' c v.
Proof.
  intros H v. destruct c; simpl; unfold upd; destruct (var_eqb v v0); rewrite ?H; auto;
    rewrite (eval_ext _ _ e H); reflexivity.
Qed.
Lemma exec_ext p : forall r r', (forall v, r v = r' v) -> forall v, exec p r v = exec p r' v.
Proof.
  induction p as [|c p IH]; intros r r' H v; [exact (H v)|].
  apply (IH (exec1 r c) (exec1 r' c)). apply exec1_ext; exact H.
Qed.

Lemma sexec_sound r p : forall s s',
  sexec p s = Some s' -> forall v, exec p (fun v => den r (s v)) v = den r (s' v).
Proof.
  induction p as [|c p IH]; simpl; intros s s' H v; [inversion H; reflexivity|].
  destruct (sexec1 s c) eqn:E; [|discriminate].
  rewrite <- (IH _ _ H v). apply exec_ext. clear - E. intros u.
  destruct c; simpl in *; destruct (seval s e) eqn:Ev; try discriminate; inversion E; subst;
    unfold upd, supd; destruct (var_eqb u v); auto.
  - apply seval_sound; assumption.
  - rewrite sadd_den. f_equal. apply seval_sound; assumption.
  - rewrite ssub_den. f_equal. apply seval_sound; assumption.
Qed.

Definition sinit : senv := SV.

(** [chunk_ok nw p expected]: running [p] from any state leaves in b_0..b_{nw-1} the values of
    [expected] and does not assign to any variable other than the b's, tmp and (if [outs]) output. *)
Definition target (c : stmt) : var :=
  match c with Assign v _ | AddAssign v _ | SubAssign v _ => v end.
Definition btarget (c : stmt) : bool :=
  match target c with B _ | Tmp => true | _ => false end.
Definition chunk_ok (n : nat) (p : list stmt) (expected : list sexpr) : bool :=
  forallb btarget p &&
  match sexec p sinit with
  | Some s => forallb (fun i => seqb (s (B i)) (nth i expected bad)) (seq 0 n)
              && Nat.eqb (length expected) n
  | None => false
  end.

Lemma chunk_ok_sound n p ex r :
  chunk_ok n p ex = true ->
  map (fun i => exec p r (B i)) (seq 0 n) = map (den r) ex.
Proof.
  unfold chunk_ok. intros H. apply andb_prop in H. destruct H as [_ H].
  destruct (sexec p sinit) eqn:E; [|discriminate].
  apply andb_prop in H. destruct H as [H L]. apply Nat.eqb_eq in L.
  rewrite forallb_forall in H.
  assert (X : map (den r) ex = map (fun i => den r (nth i ex bad)) (seq 0 n)).
  { rewrite <- L. clear. induction ex as [|x ex IH]; [reflexivity|].
    cbn [length seq map nth]. f_equal. rewrite IH.
    rewrite <- seq_shift, map_map. reflexivity. }
  rewrite X. apply map_ext_in. intros i Hi.
  specialize (H i Hi). apply seqb_eq in H. rewrite <- H.
  rewrite <- (sexec_sound r p _ _ E). apply exec_ext. reflexivity.
Qed.

Lemma exec_other p : forallb btarget p = true ->
  forall r v, (forall i, v <> B i) -> v <> Tmp -> exec p r v = r v.
Proof.
  induction p as [|c p IH]; simpl; intros H r v HB HT; [reflexivity|].
  apply andb_prop in H. destruct H as [Hc Hp].
  rewrite IH by assumption.
  assert (Hv : var_eqb v (target c) = false).
  { destruct (var_eqb v (target c)) eqn:E; [|reflexivity].
    apply var_eqb_eq in E. unfold btarget in Hc. rewrite <- E in Hc.
    destruct v; try discriminate; exfalso; [eapply HB | apply HT]; reflexivity. }
  destruct c; simpl in *; unfold upd; rewrite Hv; reflexivity.
Qed.

(** Symbolic words as an instance of the specification's word operations. *)
Definition sym : word_ops := {|
  W := sexpr; w_const := SC; w_add := sadd; w_sub := ssub; w_xor := SX;
  w_rotl := SRl; w_rotr := SRr |}.

(** Any homomorphism of word operations commutes with the specification. *)
Section Hom.
  Variables A C : word_ops.
  Variable h : W A -> W C.
  Hypothesis h_const : forall c, h (w_const A c) = w_const C c.
  Hypothesis h_add : forall x y, h (w_add A x y) = w_add C (h x) (h y).
  Hypothesis h_sub : forall x y, h (w_sub A x y) = w_sub C (h x) (h y).
  Hypothesis h_xor : forall x y, h (w_xor A x y) = w_xor C (h x) (h y).
  Hypothesis h_rotl : forall n x, h (w_rotl A n x) = w_rotl C n (h x).
  Hypothesis h_rotr : forall n x, h (w_rotr A n x) = w_rotr C n (h x).
  Variable p : tf_params.

  Lemma h_nth i l : h (nth i l (w0 A)) = nth i (map h l) (w0 C).
  Proof. unfold w0. rewrite <- h_const. symmetry. apply map_nth. Qed.

  Lemma hom_subkey k t s : map h (subkey A p k t s) = subkey C p (map h k) (map h t) s.
  Proof.
    unfold subkey. rewrite map_map. apply map_ext. intros i.
    destruct (Nat.eqb i (nw p - 3)); [rewrite h_add, !h_nth; reflexivity|].
    destruct (Nat.eqb i (nw p - 2)); [rewrite h_add, !h_nth; reflexivity|].
    destruct (Nat.eqb i (nw p - 1)); [rewrite h_add, h_nth, h_const; reflexivity|].
    apply h_nth.
  Qed.
  Lemma hom_map2 f g (Hf : forall x y, h (f x y) = g (h x) (h y)) x :
    forall y, map h (map2 A f x y) = map2 C g (map h x) (map h y).
  Proof.
    unfold map2. induction x as [|a x IH]; destruct y as [|b y]; simpl; auto.
    rewrite Hf, IH. reflexivity.
  Qed.
  Lemma hom_mix r : forall v, map h (mix A r v) = mix C r (map h v).
  Proof.
    induction r as [|c r IH]; intros v.
    - destruct v as [|x0 [|x1 v]]; reflexivity.
    - destruct v as [|x0 [|x1 v]]; try reflexivity.
      cbn [mix map]. rewrite h_xor, h_rotl, h_add, IH. reflexivity.
  Qed.
  Lemma hom_unmix r : forall v, map h (unmix A r v) = unmix C r (map h v).
  Proof.
    induction r as [|c r IH]; intros v.
    - destruct v as [|x0 [|x1 v]]; reflexivity.
    - destruct v as [|x0 [|x1 v]]; try reflexivity.
      cbn [unmix map]. rewrite h_sub, h_rotr, h_xor, IH. reflexivity.
  Qed.
  Lemma hom_permute v : map h (permute A p v) = permute C p (map h v).
  Proof. unfold permute. rewrite map_map. apply map_ext. intros i. apply h_nth. Qed.
  Lemma hom_unpermute v : map h (unpermute A p v) = unpermute C p (map h v).
  Proof. unfold unpermute. rewrite map_map. apply map_ext. intros i. apply h_nth. Qed.
  Lemma hom_round k t v d : map h (round A p k t v d) = round C p (map h k) (map h t) (map h v) d.
  Proof.
    unfold round. rewrite hom_permute, hom_mix. destruct (Nat.eqb (d mod 4) 0); [|reflexivity].
    rewrite (hom_map2 _ (w_add C)) by assumption. rewrite hom_subkey. reflexivity.
  Qed.
  Lemma hom_unround k t v d : map h (unround A p k t v d) = unround C p (map h k) (map h t) (map h v) d.
  Proof.
    unfold unround. destruct (Nat.eqb (d mod 4) 0).
    - rewrite (hom_map2 _ (w_sub C)) by assumption.
      rewrite hom_subkey, hom_unmix, hom_unpermute. reflexivity.
    - rewrite hom_unmix, hom_unpermute. reflexivity.
  Qed.
  Lemma hom_fold_round k t ds : forall v,
    map h (fold_left (round A p k t) ds v) = fold_left (round C p (map h k) (map h t)) ds (map h v).
  Proof. induction ds as [|d ds IH]; simpl; intros v; [reflexivity|]. rewrite IH, hom_round. reflexivity. Qed.
  Lemma hom_fold_unround k t ds : forall v,
    map h (fold_left (unround A p k t) ds v) = fold_left (unround C p (map h k) (map h t)) ds (map h v).
  Proof. induction ds as [|d ds IH]; simpl; intros v; [reflexivity|]. rewrite IH, hom_unround. reflexivity. Qed.
End Hom.
