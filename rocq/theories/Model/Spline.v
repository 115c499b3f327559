(** include/Geom/Spline.h over exact reals, for 3D vectors. *)
From Coq Require Import ZArith Reals List Bool.
From Verif Require Import Model.Scalar Model.Vec.
Import ListNotations.
Local Open Scope R_scope.

(** Spline.h 38-42 and 154-157: the control points with their intervals, and the order. *)
Record spline := mkSpline { spoints : list (vec3 * R); sorder : Z }.
Definition spline_new : spline := mkSpline [] 1.

(** Spline.h 80-87, SetOrder *)
Definition set_order (s : spline) (order : Z) : spline :=
  mkSpline (spoints s)
    (if (order <? 1)%Z then 1%Z
     else if (Z.of_nat (length (spoints s)) <? order)%Z then Z.of_nat (length (spoints s))
     else order).
(** Spline.h 94-101, AddPoint *)
Definition add_point (s : spline) (p : vec3) (t : R) : spline := mkSpline (spoints s ++ [(p, t)]) (sorder s).

(** Spline.h 110-117, Idx; size() - 1 of an empty vector wraps and is out of range, as [None] below. *)
Definition idx (n : nat) (i : Z) : nat :=
  if (i <? 0)%Z then 0%nat else if (Z.of_nat n <=? i)%Z then (n - 1)%nat else Z.to_nat i.
(** Spline.h 124-127, Interval; [None]: read out of range *)
Definition interval (l : list (vec3 * R)) (i : Z) : option R := option_map snd (nth_error l (idx (length l) i)).

Definition obind {A B} (x : option A) (f : A -> option B) : option B := match x with Some a => f a | None => None end.

(** Spline.h 129-151, BernsteinPolynomial(q, i, t) for q >= 0 *)
Fixpoint basis (l : list (vec3 * R)) (q : nat) (i : Z) (t : R) : option R :=
  obind (interval l i) (fun xi =>
  obind (interval l (i + 1)) (fun xi1 =>
  match q with
  | O => Some (if Rleb xi t && Rltb t xi1 then 1 else 0)
  | S q' =>
    obind (interval l (i + Z.of_nat q)) (fun xiq =>
    obind (interval l (i + Z.of_nat q + 1)) (fun xiq1 =>
    let dx1 := xiq - xi in
    let dx2 := xiq1 - xi1 in
    obind (if Rltb 0 dx1 then option_map (fun b => (t - xi) / dx1 * b) (basis l q' i t) else Some 0) (fun r1 =>
    obind (if Rltb 0 dx2 then option_map (fun b => (xiq1 - t) / dx2 * b) (basis l q' (i + 1) t) else Some 0) (fun r2 =>
    Some (r1 + r2)))))
  end)).

(** Spline.h 61-73, Evaluate: the loop over the points [rest], with j counted along. *)
Fixpoint evaluate_from (l : list (vec3 * R)) (q : nat) (t : R) (rest : list (vec3 * R)) (j : Z) (result : vec3) : option vec3 :=
  match rest with
  | [] => Some result
  | (p, _) :: rest' =>
    obind (basis l q j t) (fun b => evaluate_from l q t rest' (j + 1) (vadd result (vscale b p)))
  end.
Definition evaluate (s : spline) (t : R) : option vec3 :=
  evaluate_from (spoints s) (Z.to_nat (sorder s)) t (spoints s) (- sorder s) vzero.

(** The public operations that change a spline: SetOrder (80-87), AddPoint (94-101), assignment through operator [] (55-59, index asserted in range). *)
Inductive spline_op := OpOrder (order : Z) | OpAdd (p : vec3) (t : R) | OpAssign (i : nat) (p : vec3) (t : R).
Fixpoint assign {A} (l : list A) (i : nat) (a : A) : list A :=
  match l, i with [], _ => [] | _ :: r, O => a :: r | b :: r, S i' => b :: assign r i' a end.
Definition spline_apply (s : spline) (o : spline_op) : spline :=
  match o with
  | OpOrder order => set_order s order
  | OpAdd p t => add_point s p t
  | OpAssign i p t => mkSpline (assign (spoints s) i (p, t)) (sorder s)
  end.
Definition spline_run (s : spline) (os : list spline_op) : spline := fold_left spline_apply os s.
