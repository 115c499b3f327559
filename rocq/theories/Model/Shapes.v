(** Members of include/Geom/AABB.h, OBB.h, Triangle.h and LineCollision.h that compute sizes, centers, angles and distances. *)
From Coq Require Import ZArith Reals List Bool.
From Verif Require Import Model.Scalar Model.Vec Model.Plane Model.Coll Model.Tri.
Import ListNotations.
Local Open Scope R_scope.

(** AABB.h 98-106, Size, and 108-116, Center, for any number of components; a box is the list of its pairs (min[i], max[i]). *)
Definition size_real (b : list (R * R)) : list R := map (fun i => Rabs (snd i - fst i)) b.
Definition center_real (b : list (R * R)) : list R := map (fun i => (fst i + snd i) / 2) b.

(** The same for std::int32_t; [None]: signed overflow, which is undefined behaviour *)
Definition int32 (x : Z) : option Z := if ((- 2 ^ 31 <=? x) && (x <? 2 ^ 31))%Z then Some x else None.
Fixpoint each {A B} (f : A -> option B) (l : list A) : option (list B) :=
  match l with
  | [] => Some []
  | a :: r => match f a, each f r with Some b, Some s => Some (b :: s) | _, _ => None end
  end.
(** std::abs of the lowest number overflows as well. *)
Definition size_int (b : list (Z * Z)) : option (list Z) :=
  each (fun i => match int32 (snd i - fst i) with Some d => int32 (Z.abs d) | None => None end) b.
(** Division rounds towards zero. *)
Definition center_int (b : list (Z * Z)) : option (list Z) :=
  each (fun i => match int32 (fst i + snd i) with Some s => Some (Z.quot s 2) | None => None end) b.

(** OBB.h 35-42: the constructor from two corners; the axes are zero before their diagonal is set. *)
Definition obb_of_corners (min max : vec3) : obb :=
  mkObb (vscale (1 / 2) (vadd min max)) (V3 1 0 0) (V3 0 1 0) (V3 0 0 1) (vscale (1 / 2) (vsub max min)).
(** OBB.h 51-58, UpdateHalfSize; [None]: division by zero, the axis becomes NaN *)
Definition unit_axis (a : vec3) : option (R * vec3) := if Reqb (len a) 0 then None else Some (len a, vscale (1 / len a) a).
Definition update_half_size (b : obb) : option obb :=
  match unit_axis (oaxx b), unit_axis (oaxy b), unit_axis (oaxz b) with
  | Some (hx, x), Some (hy, y), Some (hz, z) => Some (mkObb (ocenter b) x y z (V3 hx hy hz))
  | _, _, _ => None
  end.
(** OBB.h 44-49: the constructor from a center and three axes; the half size is zero before the update. *)
Definition obb_of_axes (center x y z : vec3) : option obb := update_half_size (mkObb center x y z vzero).

(** Gs::Angle: the arc cosine of the normalized product; [None]: division by zero *)
Definition angle_between (a b : vec3) : option R := if Reqb (len a * len b) 0 then None else Some (acos (dot a b / (len a * len b))).
(** Triangle.h 225-235, operator []; [None]: the assertion vertex < 3 fails *)
Definition corner (t : triangle) (i : nat) : option vec3 :=
  match i with 0%nat => Some (pa t) | 1%nat => Some (pb t) | 2%nat => Some (pc t) | _ => None end.
(** Triangle.h 334-340, Angle *)
Definition tri_angle (t : triangle) (vertex : nat) : option R :=
  match corner t ((vertex + 1) mod 3), corner t vertex, corner t ((vertex + 2) mod 3) with
  | Some n, Some v, Some p => angle_between (vsub n v) (vsub p v)
  | _, _, _ => None
  end.
(** Triangle.h 188-194, Angle of 2D triangles: the same in the plane z = 0 *)
Definition flat (p : vec2) : vec3 := V3 (x2 p) (y2 p) 0.
Definition tri_angle2 (t : triangle2) (vertex : nat) : option R := tri_angle (mkTri (flat (a2 t)) (flat (b2 t)) (flat (c2 t))) vertex.
(** Triangle.h 116-119, Area of 2D triangles.  Area of 3D triangles, 238-241, returns a vector as a scalar and cannot be instantiated. *)
Definition tri_area2 (t : triangle2) : R :=
  ((x2 (b2 t) - x2 (a2 t)) * (y2 (c2 t) - y2 (a2 t)) - (x2 (c2 t) - x2 (a2 t)) * (y2 (b2 t) - y2 (a2 t))) / 2.

(** LineCollision.h 155-167: Gs::Length and Gs::LengthSq of the closest segment.  GaussianLib, which is absent, declares them for vectors;
    for a line they are modelled as the length from its start to its end and the square of it. *)
Definition distance_between_lines (eps : R) (A B : line) : R := line_length (closest_between_lines eps A B).
Definition distance_sq_between_lines (eps : R) (A B : line) : R := len_sq (line_direction (closest_between_lines eps A B)).
