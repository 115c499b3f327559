(** Textbook notions for Bezier curves and patches. *)
From Coq Require Import ZArith Reals List.
From Verif Require Import Model.Vec Model.Bezier.
Import ListNotations.

(** Binomial coefficients by Pascal's rule. *)
Fixpoint choose (n i : nat) : Z :=
  match n, i with
  | _, O => 1
  | O, S _ => 0
  | S m, S j => choose m j + choose m (S j)
  end.

(** De Casteljau's algorithm: repeated linear interpolation between neighbours. *)
Fixpoint lerps (t : R) (ps : list vec3) : list vec3 :=
  match ps with
  | a :: r => match r with b :: _ => lerp3 a b t :: lerps t r | [] => [] end
  | [] => []
  end.
Fixpoint casteljau (steps : nat) (t : R) (ps : list vec3) : list vec3 :=
  match steps with O => ps | S k => casteljau k t (lerps t ps) end.

(** Affine maps of space. *)
Definition affine (f : vec3 -> vec3) : Prop := forall a b t, f (lerp3 a b t) = lerp3 (f a) (f b) t.

(** The half space { x | n.x <= d }. *)
Definition half_space (n : vec3) (d : R) (x : vec3) : Prop := (dot n x <= d)%R.

(** A sheet of control points: what a client expects to read back. *)
Definition sheet := Z -> Z -> vec3.
Definition blank : sheet := fun _ _ => vzero.
Definition put (s : sheet) (u v : Z) (x : vec3) : sheet :=
  fun u' v' => if andb (Z.eqb u' u) (Z.eqb v' v) then x else s u' v'.

(** What a client expects after a history of calls: the order last set, and the last point written at each place since then.
    The calls of a history must be within the documented ranges; [limit] bounds the orders. *)
Fixpoint expected_patch (ops : list patch_op) (n : Z) (s : sheet) : Z * sheet :=
  match ops with
  | [] => (n, s)
  | POrder n' :: r => expected_patch r n' blank
  | PSet u v x :: r => expected_patch r n (put s u v x)
  end.
Definition inside_patch (n u v : Z) : Prop := (0 <= u <= n /\ 0 <= v <= n)%Z.
Fixpoint valid_patch (limit : Z) (ops : list patch_op) (n : Z) : Prop :=
  match ops with
  | [] => True
  | POrder n' :: r => (0 <= n' <= limit)%Z /\ valid_patch limit r n'
  | PSet u v x :: r => inside_patch n u v /\ valid_patch limit r n
  end.
Fixpoint expected_triangle (ops : list triangle_op) (n : Z) (s : sheet) : Z * sheet :=
  match ops with
  | [] => (n, s)
  | TOrder n' :: r => expected_triangle r n' blank
  | TSet i j x :: r => expected_triangle r n (put s i j x)
  end.
Definition inside_triangle (n i j : Z) : Prop := (0 <= i /\ 0 <= j /\ i + j <= n)%Z.
Fixpoint valid_triangle (limit : Z) (ops : list triangle_op) (n : Z) : Prop :=
  match ops with
  | [] => True
  | TOrder n' :: r => (0 <= n' <= limit)%Z /\ valid_triangle limit r n'
  | TSet i j x :: r => inside_triangle n i j /\ valid_triangle limit r n
  end.

(** Points at equal distances on a line, the first one being [a] *)
Definition evenly (a d : vec3) (n : nat) : list vec3 := map (fun i => vadd a (vscale (INR i) d)) (seq 0 (S n)).
(** The differences of neighbours *)
Fixpoint steps (ps : list vec3) : list vec3 :=
  match ps with
  | a :: r => match r with b :: _ => vsub b a :: steps r | [] => [] end
  | [] => []
  end.
(** A sheet of control points at equal distances in a parallelogram *)
Definition flat_sheet (p : patch) (o a b : vec3) : Prop :=
  forall i j, (i <= Z.to_nat (order p))%nat -> (j <= Z.to_nat (order p))%nat ->
    patch_get p (Z.of_nat i) (Z.of_nat j) = vadd o (vadd (vscale (INR i) a) (vscale (INR j) b)).
