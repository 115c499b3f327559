(** Smoothness and interpolation, for C39 and C40. *)
From Coq Require Import ZArith Reals List Bool.
From Verif Require Import Model.Vec Model.Spline.
Import ListNotations.
Local Open Scope R_scope.

(** On the open unit interval, [f'] is the derivative of [f] and is continuous. *)
Definition smooth (f f' : R -> R) : Prop := forall t, 0 < t < 1 -> derivable_pt_lim f t (f' t) /\ continuity_pt f' t.

(** [f] tends to [l] at the left end 0, at the right end 1. *)
Definition tends_at_0 (f : R -> R) (l : R) : Prop := forall eps, 0 < eps -> exists d, 0 < d /\ forall t, 0 < t < d -> Rabs (f t - l) < eps.
Definition tends_at_1 (f : R -> R) (l : R) : Prop := forall eps, 0 < eps -> exists d, 0 < d /\ forall t, 1 - d < t < 1 -> Rabs (f t - l) < eps.

Definition value (x : option vec3) : vec3 := match x with Some v => v | None => vzero end.

(** Weighted sum of points. *)
Fixpoint weighted (ws : list R) (ps : list vec3) : vec3 :=
  match ws, ps with w :: ws', p :: ps' => vadd (vscale w p) (weighted ws' ps') | _, _ => vzero end.

(** Knots in non-decreasing order. *)
Fixpoint sorted_knots (l : list (vec3 * R)) : Prop :=
  match l with
  | a :: r => match r with b :: _ => snd a <= snd b | [] => True end /\ sorted_knots r
  | [] => True
  end.

(** The coordinates of a vector. *)
Definition coordinate (c : vec3 -> R) : Prop := c = vx \/ c = vy \/ c = vz.

(** From the first knot up to the order-th knot from the end. *)
Definition in_full_range (s : spline) (t : R) : Prop :=
  let n := length (spoints s) in
  nth 0 (map snd (spoints s)) 0 <= t < nth (Nat.min (n - Z.to_nat (sorder s)) (n - 1)) (map snd (spoints s)) 0.

(** Knots in strictly increasing order. *)
Fixpoint distinct_knots (l : list (vec3 * R)) : Prop :=
  match l with
  | a :: r => match r with b :: _ => snd a < snd b | [] => True end /\ distinct_knots r
  | [] => True
  end.

(** [k] times continuously differentiable on the open interval from a to b *)
Fixpoint times_smooth (k : nat) (a b : R) (f : R -> R) : Prop :=
  match k with
  | O => forall t, a < t < b -> continuity_pt f t
  | S k' => exists f', (forall t, a < t < b -> derivable_pt_lim f t (f' t)) /\ times_smooth k' a b f'
  end.

(** The values of a coordinate at successive control points do not decrease. *)
Fixpoint rising (c : vec3 -> R) (ps : list vec3) : Prop :=
  match ps with
  | p :: r => match r with p' :: _ => c p <= c p' | [] => True end /\ rising c r
  | [] => True
  end.

(** What a history, latest operation first, says about a spline: how many points were added, the latest point given for an index, and the order asked for last, limited to the number of points at that time. *)
Fixpoint added (history : list spline_op) : nat :=
  match history with [] => 0%nat | OpAdd _ _ :: earlier => S (added earlier) | _ :: earlier => added earlier end.
Fixpoint latest (history : list spline_op) (i : nat) : option (vec3 * R) :=
  match history with
  | [] => None
  | OpAdd p t :: earlier => if Nat.eqb i (added earlier) then Some (p, t) else latest earlier i
  | OpAssign j p t :: earlier => if Nat.eqb i j && Nat.ltb i (added earlier) then Some (p, t) else latest earlier i
  | OpOrder _ :: earlier => latest earlier i
  end.
Fixpoint asked_order (history : list spline_op) : Z :=
  match history with
  | [] => 1%Z
  | OpOrder n :: earlier => Z.min (Z.max 1 n) (Z.max (if (n <? 1)%Z then 1 else 0) (Z.of_nat (added earlier)))
  | _ :: earlier => asked_order earlier
  end.
