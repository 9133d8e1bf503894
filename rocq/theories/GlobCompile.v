(** * Model of glob/compiler/compiler.go and glob.Compile.

    reflect.DeepEqual on freshly made nodes compares kind, value and children (the parent pointers lead back to the compared nodes),
    so it is equality of trees.  Recursion on matcher lists is fuelled by their length.  compile is fuelled; CompileRel in GlobSpec.v
    says "for some fuel", and GlobFactor.v proves there always is one. *)
From Coq Require Import String.
From Coq Require Import ZArith Arith List Bool.
From Verif Require Import Utf8 GoStr GlobLex GlobMatch.
Import ListNotations.
Open Scope nat_scope.

(** optimizeMatcher (compiler.go:15-89). *)
Fixpoint optimizeMatcher (m : Matcher) : Matcher :=
  match m with
  | MAny [] => MSuper
  | MAnyOf [x] => x
  | MList [c] false => MText (encode c)
  | MBTree v l r ll rl len =>
      let l := match l with Some x => Some (optimizeMatcher x) | None => None end in
      let r := match r with Some x => Some (optimizeMatcher x) | None => None end in
      match v with
      | MText t =>
          match l, r with
          | None, None => MText t
          | Some MSuper, Some MSuper => MContains t false
          | Some MSuper, None => MSuffix t
          | None, Some MSuper => MPrefix t
          | None, Some (MSuffix s) => MPrefixSuffix t s
          | Some (MPrefix p), None => MPrefixSuffix p t
          | Some (MAny seps), None => MSuffixAny t seps
          | None, Some (MAny seps) => MPrefixAny t seps
          | _, _ => MBTree v l r ll rl len
          end
      | _ => MBTree v l r ll rl len
      end
  | _ => m
  end.

(** glueMatchersAsRow (compiler.go:156-174). *)
Definition glueMatchersAsRow (ms : list Matcher) : option Matcher :=
  if length ms <=? 1 then None
  else if existsb (fun m => (Len m =? -1)%Z) ms then None
  else Some (MRow ms (fold_right (fun m l => Len m + l) 0 ms)%Z).
(** What glueMatchersAsEvery (compiler.go:176-257) keeps of one matcher: separators, any, super, single. *)
Inductive GlueKind := GSuper | GAny | GOne.
Definition glue_kind (m : Matcher) : option (list Z * GlueKind) :=
  match m with
  | MSuper => Some ([], GSuper)
  | MAny seps => Some (seps, GAny)
  | MSingle seps => Some (seps, GOne)
  | MList l true => Some (l, GOne)
  | _ => None
  end.
Definition zs_eqb (a b : list Z) : bool := if list_eq_dec Z.eq_dec a b then true else false.
(** All matchers of a kind with the same separators: those separators and the kinds. *)
Fixpoint glue_kinds (sep : list Z) (ms : list Matcher) : option (list GlueKind) :=
  match ms with
  | [] => Some []
  | m :: t =>
      match glue_kind m with
      | None => None
      | Some (s, k) => if zs_eqb s sep then match glue_kinds sep t with Some ks => Some (k :: ks) | None => None end else None
      end
  end.
Definition is_super (k : GlueKind) : bool := match k with GSuper => true | _ => false end.
Definition is_any (k : GlueKind) : bool := match k with GAny => true | _ => false end.
Definition is_one (k : GlueKind) : bool := match k with GOne => true | _ => false end.
Definition glueMatchersAsEvery (ms : list Matcher) : option Matcher :=
  if length ms <=? 1 then None
  else match ms with
  | [] => None
  | m0 :: _ =>
      match glue_kind m0 with
      | None => None
      | Some (sep, _) =>
          match glue_kinds sep ms with
          | None => None
          | Some ks =>
              let hasSuper := existsb is_super ks in
              let hasAny := existsb is_any ks in
              let hasSingle := existsb is_one ks in
              let min := length (filter is_one ks) in
              if hasSuper && negb hasAny && negb hasSingle then Some MSuper
              else if hasAny && negb hasSuper && negb hasSingle then Some (MAny sep)
              else if (hasAny || hasSuper) && (0 <? min) && (length sep =? 0) then Some (MMin min)
              else Some (MEveryOf (
                     (if 0 <? min then MMin min :: (if negb hasAny && negb hasSuper then [MMax min] else []) else [])
                     ++ (if 0 <? length sep then [MContains (utf8 sep) true] else [])))
          end
      end
  end.
(** glueMatchers (compiler.go:146-154). *)
Definition glueMatchers (ms : list Matcher) : option Matcher :=
  match glueMatchersAsEvery ms with Some m => Some m | None => glueMatchersAsRow ms end.

(** minimizeMatchers (compiler.go:259-300): the best of all slices that can be glued, again and again. *)
Definition best := option (Matcher * nat * nat).      (* done, left, right *)
Definition consider (ms : list Matcher) (b : best) (lr : nat * nat) : best :=
  let '(l, r) := lr in
  match glueMatchers (firstn (r - l) (skipn l ms)) with
  | None => b
  | Some g =>
      match b with
      | None => Some (g, l, r)
      | Some (d, dl, dr) =>
          if ((-1 <? Len d) && (-1 <? Len g) && (Len d <? Len g))%Z || (dr - dl <? r - l) then Some (g, l, r) else b
      end
  end.
(** for l := 0; l < n; l++ { for r := n; r > l; r-- *)
Definition slices (n : nat) : list (nat * nat) :=
  flat_map (fun l => map (fun k => (l, n - k)) (seq 0 (n - l))) (seq 0 n).
Fixpoint minimize_f (fuel : nat) (ms : list Matcher) : list Matcher :=
  match fuel with
  | O => ms
  | S f =>
      match fold_left (consider ms) (slices (length ms)) None with
      | None => ms
      | Some (d, l, r) =>
          let next := firstn l ms ++ d :: skipn r ms in
          if length next =? length ms then next else minimize_f f next
      end
  end.
Definition minimizeMatchers (ms : list Matcher) : list Matcher := minimize_f (length ms) ms.

(** compileMatchers (compiler.go:91-144): None = error or fuel. *)
(** The last matcher of greatest known length, with its position. *)
Fixpoint longest (ms : list Matcher) (i : nat) (maxLen : Z) (found : option (nat * Matcher)) : option (nat * Matcher) :=
  match ms with
  | [] => found
  | m :: t => if negb (Len m =? -1)%Z && (maxLen <=? Len m)%Z then longest t (S i) (Len m) (Some (i, m)) else longest t (S i) maxLen found
  end.
Fixpoint compileMatchers_f (fuel : nat) (ms : list Matcher) : option Matcher :=
  match fuel with
  | O => None
  | S f =>
      match ms with
      | [] => None
      | [m] => Some m
      | m0 :: rest =>
          match glueMatchers ms with
          | Some m => Some m
          | None =>
              match longest ms 0 (-1)%Z None with
              | None => match compileMatchers_f f rest with Some r => Some (NewBTree m0 None (Some r)) | None => None end
              | Some (idx, val) =>
                  let l := firstn idx ms in
                  let r := skipn (S idx) ms in
                  match (match l with [] => Some None | _ => match compileMatchers_f f l with Some x => Some (Some x) | None => None end end),
                        (match r with [] => Some None | _ => match compileMatchers_f f r with Some x => Some (Some x) | None => None end end) with
                  | Some l', Some r' => Some (NewBTree val l' r')
                  | _, _ => None
                  end
              end
          end
      end
  end.
Definition compileMatchers (ms : list Matcher) : option Matcher := compileMatchers_f (length ms) ms.

(** ** Factoring alternatives *)
(** Node.Equal (ast.go:26-42). *)
Fixpoint node_eqb (a b : Node) {struct a} : bool :=
  let fix all (xs ys : list Node) {struct xs} : bool :=
    match xs, ys with [], [] => true | x :: xs', y :: ys' => node_eqb x y && all xs' ys' | _, _ => false end in
  match a, b with
  | NNothing, NNothing | NAny, NAny | NSuper, NSuper | NSingle, NSingle => true
  | NPattern x, NPattern y | NAnyOf x, NAnyOf y => all x y
  | NList n c, NList n' c' => Bool.eqb n n' && eqs c c'
  | NRange n l h, NRange n' l' h' => Bool.eqb n n' && (l =? l')%Z && (h =? h')%Z
  | NText t, NText t' => eqs t t'
  | _, _ => false
  end.
Definition children (n : Node) : list Node := match n with NPattern c | NAnyOf c => c | _ => [] end.
Definition is_pattern (n : Node) : bool := match n with NPattern _ => true | _ => false end.
(** leastChildren (compiler.go:437-447): the first of the nodes with fewest children. *)
Fixpoint least (nodes : list Node) (i : nat) (found : option (nat * nat)) : option nat :=
  match nodes with
  | [] => match found with Some (idx, _) => Some idx | None => None end
  | n :: t =>
      match found with
      | None => least t (S i) (Some (i, length (children n)))
      | Some (_, min) => if length (children n) <? min then least t (S i) (Some (i, length (children n))) else least t (S i) found
      end
  end.
(** One round of the inner loop of commonChildren (compiler.go:387-401) over the other nodes: breakLeft and breakRight. *)
Fixpoint common_inner (others : list Node) (tl tr : Node) (i j treeLength : nat) (bl br : bool) : bool * bool :=
  match others with
  | [] => (bl, br)
  | n :: t =>
      if bl && br then (bl, br)
      else
        let restLeft := nth i (children n) NNothing in
        let restRight := nth (j + length (children n) - treeLength) (children n) NNothing in
        let bl' := bl || negb (node_eqb tl restLeft) in
        let br' := br || (negb bl' && (j <=? i)) in
        let br'' := br' || negb (node_eqb tr restRight) in
        common_inner t tl tr i j treeLength bl' br''
  end.
(** The outer loop (compiler.go:383-412): state = commonLeft (in order), commonRight, commonTotal. *)
Fixpoint common_outer (fuel : nat) (others : list Node) (tree : list Node) (i : nat) (bl br : bool) (total : nat) (cl cr : list Node) : list Node * list Node :=
  match fuel with
  | O => (cl, cr)
  | S f =>
      let n := length tree in
      if (total <? n) && (i <? n) && negb (bl && br) then
        let j := n - 1 - i in
        let tl := nth i tree NNothing in
        let tr := nth j tree NNothing in
        let '(bl', br') := common_inner others tl tr i j n bl br in
        let '(cl', t1) := if bl' then (cl, total) else (cl ++ [tl], S total) in
        let '(cr', t2) := if br' then (cr, t1) else (tr :: cr, S t1) in
        common_outer f others tree (S i) bl' br' t2 cl' cr'
      else (cl, cr)
  end.
(** commonChildren (compiler.go:359-417). *)
Definition commonChildren (nodes : list Node) : list Node * list Node :=
  if length nodes <=? 1 then ([], [])
  else match least nodes 0 None with
       | None => ([], [])
       | Some idx =>
           let tree := children (nth idx nodes NNothing) in
           common_outer (S (length tree)) (firstn idx nodes ++ skipn (S idx) nodes) tree 0 false false 0 [] []
       end.
(** appendIfUnique (compiler.go:419-426). *)
Definition appendIfUnique (target : list Node) (v : Node) : list Node := if existsb (fun n => node_eqb n v) target then target else target ++ [v].
(** minimizeTree (compiler.go:303-310) and minimizeTreeAnyOf (compiler.go:316-357; areOfSameKind 428-435), given the children of the AnyOf node. *)
Definition rest_node (l r : nat) (child : Node) : Node :=
  let ch := children child in
  match firstn (length ch - r - l) (skipn l ch) with [] => NNothing | reuse => NPattern reuse end.
Definition minimizeTreeAnyOf (ch : list Node) : option Node :=
  if negb (forallb is_pattern ch) then None
  else
    let '(cl, cr) := commonChildren ch in
    if (length cl =? 0) && (length cr =? 0) then None
    else
      let anyOf := fold_left (fun acc c => appendIfUnique acc (rest_node (length cl) (length cr) c)) ch [] in
      let mid := match anyOf with
                 | [NNothing] => []
                 | [n] => [n]
                 | [] => []
                 | _ => [NAnyOf anyOf]
                 end in
      Some (NPattern ((if length cl =? 0 then [] else [NPattern cl]) ++ mid ++ (if length cr =? 0 then [] else [NPattern cr]))).

(** compile, compileTreeChildren and Compile (compiler.go:449-516, 518-525); None = out of fuel (the code's errors cannot occur: compileMatchers is only
    called on a non-empty list). *)
Fixpoint map_opt {A B} (f : A -> option B) (l : list A) : option (list B) :=
  match l with [] => Some [] | x :: t => match f x, map_opt f t with Some y, Some ys => Some (y :: ys) | _, _ => None end end.
Fixpoint compile_f (fuel : nat) (n : Node) (sep : list Z) : option Matcher :=
  match fuel with
  | O => None
  | S f =>
      match n with
      | NAnyOf ch =>
          match minimizeTreeAnyOf ch with
          | Some n' => compile_f f n' sep
          | None => match map_opt (fun c => option_map optimizeMatcher (compile_f f c sep)) ch with Some ms => Some (MAnyOf ms) | None => None end
          end
      | NPattern [] => Some MNothing
      | NPattern ch =>
          match map_opt (fun c => option_map optimizeMatcher (compile_f f c sep)) ch with
          | Some ms => option_map optimizeMatcher (compileMatchers (minimizeMatchers ms))
          | None => None
          end
      | NAny => Some (optimizeMatcher (MAny sep))
      | NSuper => Some MSuper
      | NSingle => Some (MSingle sep)
      | NNothing => Some MNothing
      | NList not chars => Some (optimizeMatcher (MList (runes chars) not))
      | NRange not lo hi => Some (MRange lo hi not)
      | NText t => Some (MText t)
      end
  end.
