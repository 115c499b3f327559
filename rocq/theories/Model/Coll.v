(** Model of include/Geom/AABBCollision.h, SphereCollision.h, LineCollision.h, RayCollision.h and of the derived sizes of Sphere.h
    and Cone.h, over exact reals.  Vectors have three components. *)
From Coq Require Import Reals List Bool.
From Verif Require Import Model.Scalar Model.Vec Model.Plane.
Import ListNotations.
Local Open Scope R_scope.

(** ** AABBCollision.h *)

(** One component of a ray and a box: origin, direction, min, max *)
Record slab := mkSlab { so : R; sd : R; slo : R; shi : R }.

(** IntersectionWithAABBInterp, 32-73: the loop over the remaining components.  [eps] is Gs::Epsilon<T>(); it is positive, so the
    division is not by zero. *)
Fixpoint slab_loop (eps : R) (l : list slab) (tmin tmax : R) : option R :=
  match l with
  | [] => Some tmin
  | s :: l' =>
      if Rltb (Rabs (sd s)) eps
      then if Rltb (so s) (slo s) || Rltb (shi s) (so s) then None else slab_loop eps l' tmin tmax
      else
        let ood := 1 / sd s in
        let t1 := (slo s - so s) * ood in
        let t2 := (shi s - so s) * ood in
        let (t1, t2) := if Rltb t2 t1 then (t2, t1) else (t1, t2) in
        let tmin := Rmax tmin t1 in
        let tmax := Rmin tmax t2 in
        if Rltb tmax tmin then None else slab_loop eps l' tmin tmax
  end.
Definition slabs (b : aabb) (r : ray) : list slab :=
  [mkSlab (vx (rorigin r)) (vx (rdirection r)) (vx (bmin b)) (vx (bmax b));
   mkSlab (vy (rorigin r)) (vy (rdirection r)) (vy (bmin b)) (vy (bmax b));
   mkSlab (vz (rorigin r)) (vz (rdirection r)) (vz (bmin b)) (vz (bmax b))].
(** 32-73; [big] is std::numeric_limits<T>::max() *)
Definition box_interp (eps big : R) (b : aabb) (r : ray) : option R := slab_loop eps (slabs b r) 0 big.

Definition line_ray (l : line) : ray := mkRay (la l) (line_direction l).
(** Line.h: Length *)
Definition line_length (l : line) : R := len (vsub (lb l) (la l)).

(** 84-102: segment, returning the point *)
Definition box_line (eps big : R) (b : aabb) (l : line) : option vec3 :=
  match box_interp eps big b (line_ray l) with
  | None => None
  | Some t => if Rltb t 0 || Rltb 1 t then None else Some (ray_lerp (line_ray l) t)
  end.
(** 111-128: segment, without the point *)
Definition box_line_test (eps big : R) (b : aabb) (l : line) : bool :=
  match box_interp eps big b (line_ray l) with
  | None => false
  | Some t => if Rltb t 0 then false else if Rltb (line_length l) t then false else true
  end.
(** 139-154: ray, returning the point *)
Definition box_ray (eps big : R) (b : aabb) (r : ray) : option vec3 :=
  match box_interp eps big b r with
  | None => None
  | Some t => if Rltb t 0 then None else Some (ray_lerp r t)
  end.
(** 163-172: ray, without the point *)
Definition box_ray_test (eps big : R) (b : aabb) (r : ray) : bool :=
  match box_interp eps big b r with Some t => Rleb 0 t | None => false end.

(** ** SphereCollision.h *)

(** 36-62 *)
Definition sphere_interp (s : sphere) (o d : vec3) : option R :=
  let dif := vsub o (sorigin s) in
  let c := len_sq dif - sradius s * sradius s in
  if Rltb c 0 then None else
  let b := dot dif d in
  if Rltb 0 b then None else
  let disc := b * b - c in
  if Rltb disc 0 then None else Some (- b - sqrt disc).
(** 66-78 *)
Definition sphere_ray (s : sphere) (r : ray) : option vec3 :=
  match sphere_interp s (rorigin r) (rdirection r) with Some t => Some (ray_lerp r t) | None => None end.

(** ** LineCollision.h *)

(** Gs::Saturate *)
Definition saturate (x : R) : R := Rmax 0 (Rmin x 1).

(** ClosestPointOnLine, 27-47.  [None]: the segment has length 0, the components of the result are not numbers (0 times infinity). *)
Definition closest_on_line (l : line) (x : vec3) : option vec3 :=
  let pos := vsub x (la l) in
  let dir := line_direction l in
  let n := len dir in
  if Reqb n 0 then None else
  let dir := vscale (1 / n) dir in
  let factor := dot dir pos in
  if Rltb factor 0 then Some (la l) else
  if Rltb n factor then Some (lb l) else
  Some (vadd (la l) (vscale factor dir)).
(** DistanceToLine 51-54, DistanceSqToLine 58-61 *)
Definition distance_to_line (l : line) (x : vec3) : option R :=
  match closest_on_line l x with Some c => Some (len (vsub c x)) | None => None end.
Definition distance_sq_to_line (l : line) (x : vec3) : option R :=
  match closest_on_line l x with Some c => Some (len_sq (vsub c x)) | None => None end.

(** ClosestSegmentBetweenLines, 69-153; [eps] is Gs::Epsilon<T>(), so neither a nor e is zero when dividing by it *)
Definition closest_params (eps : R) (A B : line) : R * R :=
  let dirA := line_direction A in
  let dirB := line_direction B in
  let r := vsub (la A) (la B) in
  let a := len_sq dirA in
  let e := len_sq dirB in
  let f := dot dirB r in
  if Rleb a eps then (0, saturate (f / e))
  else
    let c := dot dirA r in
    if Rleb e eps then (saturate (- c / a), 0)
    else
      let b := dot dirA dirB in
      let denom := a * e - b * b in
      let s := if Reqb denom 0 then 0 else saturate ((b * f - c * e) / denom) in
      let t := (b * s + f) / e in
      if Rltb t 0 then (saturate (- c / a), 0)
      else if Rltb 1 t then (saturate ((b - c) / a), 1)
      else (s, t).
Definition closest_between_lines (eps : R) (A B : line) : line :=
  if Rleb (len_sq (line_direction A)) eps && Rleb (len_sq (line_direction B)) eps then mkLine (la A) (la B)
  else
    let (s, t) := closest_params eps A B in
    mkLine (vadd (vscale s (line_direction A)) (la A)) (vadd (vscale t (line_direction B)) (la B)).

(** ** RayCollision.h 29-52 *)
Definition closest_between_rays (A B : ray) : line :=
  let r := vsub (rorigin A) (rorigin B) in
  let c := dot (rdirection A) r in
  let f := dot (rdirection B) r in
  let b := dot (rdirection A) (rdirection B) in
  let denom := 1 - b * b in
  if Reqb denom 0 then mkLine (rorigin A) (rorigin B)
  else
    let s := (b * f - c) / denom in
    let t := b * s + f in
    mkLine (ray_lerp A s) (ray_lerp B t).

(** ** Sphere.h, Cone.h: derived sizes *)

(** std::pow for a finite non-negative base and a positive exponent; [None] (not a number) for a negative base and an exponent that
    is not an integer *)
Definition cpow (x y : R) : option R := if Rltb x 0 then None else if Reqb x 0 then Some 0 else Some (Rpower x y).
(** std::sqrt *)
Definition csqrt (x : R) : option R := if Rltb x 0 then None else Some (sqrt x).

(** Sphere.h 42-45 *)
Definition sphere_volume (s : sphere) : R := 4 / 3 * PI * sradius s * sradius s * sradius s.
(** 48-51 *)
Definition sphere_set_volume (s : sphere) (v : R) : option sphere :=
  match cpow (v * 3 / (4 * PI)) (1 / 3) with Some r => Some (mkSphere (sorigin s) r) | None => None end.
(** 54-57 *)
Definition sphere_area (s : sphere) : R := 4 * PI * sradius s * sradius s.
(** 60-63 *)
Definition sphere_set_area (s : sphere) (a : R) : option sphere :=
  match csqrt (a / (4 * PI)) with Some r => Some (mkSphere (sorigin s) r) | None => None end.

(** Cone.h 41-44 *)
Definition cone_volume (c : cone) : R := 1 / 3 * PI * cradius c * cradius c * cheight c.
(** 46-49 *)
Definition cone_set_angle (c : cone) (angle : R) : cone := mkCone (cpoint c) (cdirection c) (cheight c * tan angle) (cheight c).
(** 51-54; [None]: 0/0.  For height 0 and another radius the quotient is infinite and its arc tangent PI/2 or -PI/2; [neg] is the sign
    of the height then. *)
Definition cone_angle (neg : bool) (c : cone) : option R :=
  if Reqb (cheight c) 0
  then if Reqb (cradius c) 0 then None else Some (if eqb (Rltb 0 (cradius c)) neg then - (PI / 2) else PI / 2)
  else Some (atan (cradius c / cheight c)).
