(** Model of the BinaryTree class and of the CSG evaluation of general_optics.py:247-624. *)
From Coq Require Import ZArith List String Bool.
From Verif Require Import PyErr Num Vec Shapes.
Import ListNotations.

(** Values stored in BinaryTree.key by the code base: operator strings or Shape objects. *)
Inductive key (T : Type) : Type :=
| KStr (s : string)
| KShape (s : shape T).
Arguments KStr {T} s.
Arguments KShape {T} s.

(** general_optics.py:247-251  class BinaryTree; [Nil] is a child that is None.
    Simplification: trees are values, so a node shared between two parents is not expressible
    (insertLeft/insertRight never create sharing). *)
Inductive tree (K : Type) : Type :=
| Nil
| Node (k : K) (l r : tree K).
Arguments Nil {K}.
Arguments Node {K} k l r.

Section BinaryTree.
Context {K : Type}.
(** general_optics.py:248-251  BinaryTree.__init__ *)
Definition mk_tree (k : K) : tree K := Node k Nil Nil.
(** general_optics.py:253-259  insertLeft (on a node; None has no such method) *)
Definition insertLeft (t : tree K) (newNode : K) : Res (tree K) :=
  match t with
  | Nil => Err AttributeError
  | Node k Nil r => Ok (Node k (Node newNode Nil Nil) r)
  | Node k l r => Ok (Node k (Node newNode l Nil) r)
  end.
(** general_optics.py:261-267  insertRight *)
Definition insertRight (t : tree K) (newNode : K) : Res (tree K) :=
  match t with
  | Nil => Err AttributeError
  | Node k l Nil => Ok (Node k l (Node newNode Nil Nil))
  | Node k l r => Ok (Node k l (Node newNode Nil r))
  end.
(** general_optics.py:269-270  getRightChild *)
Definition getRightChild (t : tree K) : Res (tree K) :=
  match t with Nil => Err AttributeError | Node _ _ r => Ok r end.
(** general_optics.py:272-273  getLeftChild *)
Definition getLeftChild (t : tree K) : Res (tree K) :=
  match t with Nil => Err AttributeError | Node _ l _ => Ok l end.
(** general_optics.py:275-276  setRootVal *)
Definition setRootVal (t : tree K) (obj : K) : Res (tree K) :=
  match t with Nil => Err AttributeError | Node _ l r => Ok (Node obj l r) end.
(** general_optics.py:278-279  getRootVal *)
Definition getRootVal (t : tree K) : Res K :=
  match t with Nil => Err AttributeError | Node k _ _ => Ok k end.

(** A chain r.getLeftChild().getRightChild()... followed by a mutating call on the node reached:
    since children are references, the effect is an update of the tree at that address. *)
Inductive dir := dL | dR.
Fixpoint at_path (p : list dir) (f : tree K -> Res (tree K)) (t : tree K) : Res (tree K) :=
  match p with
  | [] => f t
  | dL :: p => match t with
              | Nil => Err AttributeError
              | Node k l r => do l' <- at_path p f l; Ok (Node k l' r)
              end
  | dR :: p => match t with
              | Nil => Err AttributeError
              | Node k l r => do r' <- at_path p f r; Ok (Node k l r')
              end
  end.
End BinaryTree.

Section Csg.
Context {T : Type} {N : Num T}.
Local Open Scope num_scope.

(* ---- point membership ---- *)

(** general_optics.py:345-353  operCsgIndexUnion *)
Definition operCsgIndexUnion (resA resB : bool) : bool :=
  if (resA && resB)%bool then true else if resA then true else if resB then true else false.
(** general_optics.py:356-364  operCsgIndexIntersect *)
Definition operCsgIndexIntersect (resA resB : bool) : bool :=
  if (resA && resB)%bool then true else if resA then false else if resB then false else false.
(** general_optics.py:367-376  operCsgIndexDifference *)
Definition operCsgIndexDifference (resA resB : bool) : bool :=
  if (resA && resB)%bool then false else if resA then true else if resB then false else false.

(** general_optics.py:324,334  opers[tree.getRootVal()]; a missing key raises KeyError *)
Definition index_oper (k : key T) : Res (bool -> bool -> bool) :=
  match k with
  | KStr s => if String.eqb s "union" then Ok operCsgIndexUnion
              else if String.eqb s "difference" then Ok operCsgIndexDifference
              else if String.eqb s "intersect" then Ok operCsgIndexIntersect
              else Err KeyError
  | KShape _ => Err KeyError
  end.

(** method call key.test_point(point); a string has no such method *)
Definition key_test_point (k : key T) (p : vec T) : Res (option bool) :=
  match k with KShape s => shape_test_point s p | KStr _ => Err AttributeError end.

(** general_optics.py:323-341  test_tree_point *)
Fixpoint test_tree_point (t : tree (key T)) (p : vec T) : Res (option bool) :=
  match t with
  | Nil => Ok None
  | Node k l r =>
      do resA <- test_tree_point l p;
      do resB <- test_tree_point r p;
      match resA, resB with
      | Some a, Some b => do f <- index_oper k; Ok (Some (f a b))
      | _, _ => key_test_point k p
      end
  end.

(* ---- ray intersection ---- *)

Inductive mode := nearest | farthest.

(** general_optics.py:379-419  helper_findIntersects(res, ray, mode).
    Result: point, normal, distance, number_of_intersections.  In the third case (line 409)
    distance_between(ray.position, res[1]) is evaluated with res[1] = None and raises TypeError. *)
Definition helper_findIntersects (res : hit6 T) (r : ray T) (m : mode)
  : Res (option (vec T) * option (vec T) * option T * Z) :=
  match h6_p1 res, h6_p2 res with
  | Some p1, Some p2 =>
      let distance1 := distance_between (position r) p1 in
      let distance2 := distance_between (position r) p2 in
      Ok (match m with
          | nearest => if distance1 <? distance2
                       then (Some p1, h6_n1 res, Some distance1, 2%Z)
                       else (Some p2, h6_n2 res, Some distance2, 2%Z)
          | farthest => if distance1 >? distance2
                        then (Some p1, h6_n1 res, Some distance1, 2%Z)
                        else (Some p2, h6_n2 res, Some distance2, 2%Z)
          end)
  | Some p1, None => Ok (Some p1, h6_n1 res, Some (distance_between (position r) p1), 1%Z)
  | None, Some _ => Err TypeError
  | None, None => Ok (None, None, None, 0%Z)
  end.

(** a comparison of two distances of which one is None raises TypeError *)
Definition olt (a b : option T) : Res bool :=
  do a <- need a; do b <- need b; Ok (a <? b).

(** np.isclose(np.mod(n, 2), 0) on an integer n *)
Definition evenb (n : Z) : bool := Z.even n.

(** general_optics.py:422-477  operCsgUnion *)
Definition operCsgUnion (resA resB : hit6 T) (r : ray T) : Res (hit6 T) :=
  let total := (h6_count resA + h6_count resB)%Z in
  if (h6_flag resA && h6_flag resB)%bool then
    do (pointA, normalA, distanceA, _) <- helper_findIntersects resA r nearest;
    do (pointB, normalB, distanceB, _) <- helper_findIntersects resB r nearest;
    match pointA, pointB with
    | Some _, Some _ =>
        do lt <- olt distanceA distanceB;
        if lt then Ok (H6 true pointA None normalA None total)
        else Ok (H6 true pointB None normalB None total)
    | Some _, None => Ok (H6 true pointA None normalA None total)
    | None, _ => Ok (H6 true None None None None total)
    end
  else if h6_flag resA then
    do (pointA, normalA, _, _) <- helper_findIntersects resA r nearest;
    Ok (H6 true pointA None normalA None total)
  else if h6_flag resB then
    do (pointB, normalB, _, _) <- helper_findIntersects resB r nearest;
    Ok (H6 true pointB None normalB None total)
  else Ok (H6 false None None None None total).

(** general_optics.py:481-575  operCsgIntersect.  Python's [and] short-circuits, so the second comparison
    is evaluated only when the first is true. *)
Definition operCsgIntersect (resA resB : hit6 T) (r : ray T) : Res (hit6 T) :=
  let total := (h6_count resA + h6_count resB)%Z in
  let miss := H6 false None None None None total in
  if (h6_flag resA && h6_flag resB)%bool then
    do (pointA_near, normalA_near, distanceA_near, _) <- helper_findIntersects resA r nearest;
    do (pointB_near, normalB_near, distanceB_near, _) <- helper_findIntersects resB r nearest;
    do (_, _, distanceA_far, nA) <- helper_findIntersects resA r farthest;
    do (_, _, distanceB_far, nB) <- helper_findIntersects resB r farthest;
    if (evenb nA && evenb nB)%bool then
      do c1 <- olt distanceA_near distanceB_near;
      do c1' <- (if c1 then olt distanceB_near distanceA_far else Ok false);
      if c1' then Ok (H6 true pointB_near None normalB_near None total)
      else
        do c2 <- olt distanceB_near distanceA_near;
        do c2' <- (if c2 then olt distanceA_near distanceB_far else Ok false);
        if c2' then Ok (H6 true pointA_near None normalA_near None total)
        else Ok miss
    else if evenb nA then
      do c1 <- olt distanceB_near distanceA_near;
      do c1' <- (if c1 then olt distanceB_near distanceA_far else Ok false);
      if c1' then Ok miss else Ok (H6 true pointA_near None normalA_near None total)
    else if evenb nB then
      do c1 <- olt distanceA_near distanceB_near;
      do c1' <- (if c1 then olt distanceA_near distanceB_far else Ok false);
      if c1' then Ok miss else Ok (H6 true pointB_near None normalB_near None total)
    else
      do c <- olt distanceA_near distanceB_near;
      if c then Ok (H6 true pointA_near None normalA_near None (total + 1))
      else Ok (H6 true pointB_near None normalB_near None (total + 1))
  else Ok miss.

(** general_optics.py:579-624  operCsgDifference.  Line 613 unpacks the 4-tuple returned by
    helper_findIntersects into two names, which raises ValueError (after the helper has run). *)
Definition operCsgDifference (resA resB : hit6 T) (r : ray T) : Res (hit6 T) :=
  let total := (h6_count resA + h6_count resB)%Z in
  let miss := H6 false None None None None total in
  if (h6_flag resA && h6_flag resB)%bool then
    do (pointA_near, normalA_near, distanceA_near, _) <- helper_findIntersects resA r nearest;
    do (_, _, distanceB_near, _) <- helper_findIntersects resB r nearest;
    do (_, _, distanceA_far, _) <- helper_findIntersects resA r farthest;
    do (pointB_far, normalB_far, distanceB_far, _) <- helper_findIntersects resB r farthest;
    do c1 <- olt distanceA_near distanceB_near;
    if c1 then Ok (H6 true pointA_near None normalA_near None total)
    else
      do c2 <- olt distanceB_far distanceA_far;
      if c2 then Ok (H6 true pointB_far None normalB_far None total)
      else Ok miss
  else if h6_flag resA then
    do _ <- helper_findIntersects resA r nearest;
    Err ValueError
  else Ok miss.

(** general_optics.py:309,317  opers[tree.getRootVal()] *)
Definition csg_oper (k : key T) : Res (hit6 T -> hit6 T -> ray T -> Res (hit6 T)) :=
  match k with
  | KStr s => if String.eqb s "union" then Ok operCsgUnion
              else if String.eqb s "difference" then Ok operCsgDifference
              else if String.eqb s "intersect" then Ok operCsgIntersect
              else Err KeyError
  | KShape _ => Err KeyError
  end.

(** indexing res[5] of a result tuple: a 3-tuple has no item 5 *)
Definition index6 (i : ires T) : Res (hit6 T) :=
  match i with I6 h => Ok h | I3 _ => Err IndexError | INone => Err TypeError end.

(** method call key.test_intersect(ray); a string has no such method *)
Definition key_test_intersect (k : key T) (r : ray T) : Res (ires T) :=
  match k with KShape s => shape_test_intersect s r | KStr _ => Err AttributeError end.

(** general_optics.py:308-320  test_tree_intersect *)
Fixpoint test_tree_intersect (t : tree (key T)) (r : ray T) : Res (ires T) :=
  match t with
  | Nil => Ok INone
  | Node k l rt =>
      do resA <- test_tree_intersect l r;
      do resB <- test_tree_intersect rt r;
      match resA, resB with
      | INone, _ | _, INone => key_test_intersect k r
      | _, _ =>
          do f <- csg_oper k;
          do a <- index6 resA;
          do b <- index6 resB;
          do h <- f a b r;
          Ok (I6 h)
      end
  end.

(* ---- rendering ---- *)
(** general_optics.py:296-305  printCsgUnion / printCsgIntersect / printCsgDifference *)
Definition printCsgUnion (a b : string) : string := ("( " ++ a ++ " u " ++ b ++ " )")%string.
Definition printCsgIntersect (a b : string) : string := ("( " ++ a ++ " n " ++ b ++ " )")%string.
Definition printCsgDifference (a b : string) : string := ("( " ++ a ++ " \ " ++ b ++ " )")%string.

(** Value returned by postOrderEval: None, a string, or the key object of a leaf. *)
Inductive pval := PNone | PStr (s : string) | PShape (s : shape T).
(** Python truth value: None and "" are false; Shape objects define neither __bool__ nor __len__. *)
Definition ptruthy (v : pval) : bool :=
  match v with PNone => false | PStr s => negb (String.eqb s "") | PShape _ => true end.

Section Render.
(** str(shape): the __repr__ of a shape, an arbitrary function here (number formatting is Python's). *)
Variable str_shape : shape T -> string.
Definition pstr (v : pval) : string :=
  match v with PNone => "None" | PStr s => s | PShape s => str_shape s end.
Definition print_oper (k : key T) : Res (string -> string -> string) :=
  match k with
  | KStr s => if String.eqb s "union" then Ok printCsgUnion
              else if String.eqb s "difference" then Ok printCsgDifference
              else if String.eqb s "intersect" then Ok printCsgIntersect
              else Err KeyError
  | KShape _ => Err KeyError
  end.
Definition key_val (k : key T) : pval := match k with KStr s => PStr s | KShape s => PShape s end.

(** general_optics.py:283-293  postOrderEval *)
Fixpoint postOrderEval (t : tree (key T)) : Res pval :=
  match t with
  | Nil => Ok PNone
  | Node k l r =>
      do res1 <- postOrderEval l;
      do res2 <- postOrderEval r;
      if (ptruthy res1 && ptruthy res2)%bool then
        do f <- print_oper k;
        Ok (PStr (f (pstr res1) (pstr res2)))
      else Ok (key_val k)
  end.
End Render.
End Csg.
