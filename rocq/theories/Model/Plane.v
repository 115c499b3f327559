(** Model of include/Geom/Plane.h, PlaneCollision.h, ConvexHull.h, Frustum.h, ConeCollision.h and of the class members of
    Line.h, Ray.h, Sphere.h, Cone.h, OBB.h they use, over exact reals.  The template parameter PlaneEq is the argument
    [alt]: false for PlaneEquation_NX_eq_D, true for PlaneEquation_NXD_eq_Zero. *)
From Coq Require Import Reals List Bool.
From Verif Require Import Model.Scalar Model.Vec Model.Ext.
Import ListNotations.
Local Open Scope R_scope.

(** Plane.h 210-211 *)
Record plane := mkPlane { normal : vec3; distance : R }.

(** Line.h (a, b), Ray.h (origin, direction), Sphere.h (origin, radius), Cone.h (point, direction, radius, height),
    AABB.h (min, max), OBB.h (center, axes, halfSize): the data members *)
Record line := mkLine { la : vec3; lb : vec3 }.
Record ray := mkRay { rorigin : vec3; rdirection : vec3 }.
Record sphere := mkSphere { sorigin : vec3; sradius : R }.
Record cone := mkCone { cpoint : vec3; cdirection : vec3; cradius : R; cheight : R }.
Record aabb := mkAabb { bmin : vec3; bmax : vec3 }.
Record obb := mkObb { ocenter : vec3; oaxx : vec3; oaxy : vec3; oaxz : vec3; ohalf : vec3 }.

(** A 4x4 matrix by its first three rows: three 3x3 rows and a translation column; and by all four rows (x, y, z, w). *)
Record affine := mkAffine { row0 : vec3; row1 : vec3; row2 : vec3; trans : vec3 }.
Record vec4 := V4 { xyz : vec3; w4 : R }.
Record mat4 := mkMat4 { m0 : vec4; m1 : vec4; m2 : vec4; m3 : vec4 }.

(** Plane.h 43-50, 70-77: DistanceSign *)
Definition dsign (alt : bool) (d : R) : R := if alt then - d else d.

(** Plane.h 118-122 *)
Definition plane_4 (alt : bool) (x y z d : R) : plane := mkPlane (V3 x y z) (dsign alt d).

(** Plane.h 158-161 *)
Definition update_distance (alt : bool) (p : plane) (m : vec3) : plane := mkPlane (normal p) (dsign alt (dot (normal p) m)).

(** Plane.h 142-148, also 109-112 and 124-127 *)
Definition build3 (alt : bool) (a b c : vec3) : plane :=
  update_distance alt (mkPlane (normalize (cross (vsub b a) (vsub c a))) 0) a.

(** Plane.h 151-155 *)
Definition build_point (alt : bool) (n m : vec3) : plane := update_distance alt (mkPlane n 0) m.

(** Plane.h 164-173 *)
Definition plane_normalize (p : plane) : plane :=
  if Rltb 0 (len (normal p))
  then let s := 1 / len (normal p) in mkPlane (vscale s (normal p)) (distance p * s)
  else p.

(** Plane.h 179-182 *)
Definition member_point (alt : bool) (p : plane) : vec3 := vscale (dsign alt (distance p)) (normal p).

(** Plane.h 185-195 *)
Definition flip (p : plane) : plane := mkPlane (vopp (normal p)) (- distance p).

(** Gs::RotateVector and Gs::TransformVector for an affine matrix *)
Definition rotate_vector (m : affine) (v : vec3) : vec3 := V3 (dot (row0 m) v) (dot (row1 m) v) (dot (row2 m) v).
Definition transform_vector (m : affine) (v : vec3) : vec3 := vadd (rotate_vector m v) (trans m).

(** Plane.h 219-226 *)
Definition transform_plane (alt : bool) (m : affine) (p : plane) : plane :=
  let member := transform_vector m (member_point alt p) in
  let n := rotate_vector m (normal p) in
  mkPlane n (dot n member).

(** PlaneCollision.h 30-33 *)
Definition sgn_distance (alt : bool) (p : plane) (x : vec3) : R := dot (normal p) x - dsign alt (distance p).

(** PlaneCollision.h 37-40 *)
Definition plane_distance (alt : bool) (p : plane) (x : vec3) : R := Rabs (sgn_distance alt p x).

(** AABB.h: Center() *)
Definition box_center (b : aabb) : vec3 := vscale (1 / 2) (vadd (bmin b) (bmax b)).

(** PlaneCollision.h 44-60 *)
Definition plane_distance_aabb (alt : bool) (p : plane) (b : aabb) : R :=
  let c := box_center b in
  let e := vsub (bmax b) c in
  let radius := vx e * Rabs (vx (normal p)) + vy e * Rabs (vy (normal p)) + vz e * Rabs (vz (normal p)) in
  plane_distance alt p c - radius.

(** PlaneCollision.h 64-74 *)
Definition plane_distance_obb (alt : bool) (p : plane) (b : obb) : R :=
  let radius :=
    vx (ohalf b) * Rabs (dot (normal p) (oaxx b)) +
    vy (ohalf b) * Rabs (dot (normal p) (oaxy b)) +
    vz (ohalf b) * Rabs (dot (normal p) (oaxz b)) in
  plane_distance alt p (ocenter b) - radius.

(** PlaneCollision.h 78-81 *)
Definition closest_on_plane (alt : bool) (p : plane) (x : vec3) : vec3 := vsub x (vscale (sgn_distance alt p x) (normal p)).

(** PlaneCollision.h 96-99; [neg] is the sign of the divisor if it is zero *)
Definition plane_interp (alt neg : bool) (p : plane) (o d : vec3) : ext :=
  ediv neg (- sgn_distance alt p o) (dot (normal p) d).

(** Result of an intersection function: its bool and the out parameter ([HitInf]: true, with a point that is not finite). *)
Inductive hit := Miss | Hit (p : vec3) | HitInf.

(** Ray.h and Line.h: Lerp, Direction *)
Definition ray_lerp (r : ray) (t : R) : vec3 := vadd (rorigin r) (vscale t (rdirection r)).
Definition line_direction (l : line) : vec3 := vsub (lb l) (la l).
Definition line_lerp (l : line) (t : R) : vec3 := lerp3 (la l) (lb l) t.

(** PlaneCollision.h 103-115 *)
Definition plane_ray (alt neg : bool) (p : plane) (r : ray) : hit :=
  let t := plane_interp alt neg p (rorigin r) (rdirection r) in
  if ext_ge t 0 then match t with Fin s => Hit (ray_lerp r s) | _ => HitInf end else Miss.

(** PlaneCollision.h 119-131 *)
Definition plane_line (alt neg : bool) (p : plane) (l : line) : hit :=
  let t := plane_interp alt neg p (la l) (line_direction l) in
  if ext_ge t 0 && ext_le t 1 then match t with Fin s => Hit (line_lerp l s) | _ => HitInf end else Miss.

(** PlaneCollision.h 135-155; for a positive [eps] the division is never by zero *)
Definition plane_plane (alt : bool) (a b : plane) (eps : R) : option ray :=
  let dir := cross (normal a) (normal b) in
  let denom := dot dir dir in
  if Rltb eps denom
  then
    let o := vscale (dsign alt (distance a)) (normal b) in
    let o := vsub o (vscale (dsign alt (distance b)) (normal a)) in
    let o := cross o dir in
    Some (mkRay (vscale (/ denom) o) dir)
  else None.

(** PlaneCollision.h 159-167 *)
Definition plane_plane_plane (alt neg : bool) (a b c : plane) (eps : R) : hit :=
  match plane_plane alt a b eps with
  | Some r => plane_ray alt neg c r
  | None => Miss
  end.

(** PlaneCollision.h 173-179 *)
Inductive relation := InFrontOf | Clipped | Behind | Onto.

(** PlaneCollision.h 229-232 *)
Definition is_front (alt : bool) (p : plane) (x : vec3) : bool := Rltb (dsign alt (distance p)) (dot (normal p) x).

(** PlaneCollision.h 183-211 *)
Definition relation_aabb (alt : bool) (p : plane) (b : aabb) : relation :=
  let n := normal p in
  let near := V3 (if Rltb 0 (vx n) then vx (bmin b) else vx (bmax b))
                 (if Rltb 0 (vy n) then vy (bmin b) else vy (bmax b))
                 (if Rltb 0 (vz n) then vz (bmin b) else vz (bmax b)) in
  let far := V3 (if Rltb 0 (vx n) then vx (bmax b) else vx (bmin b))
                (if Rltb 0 (vy n) then vy (bmax b) else vy (bmin b))
                (if Rltb 0 (vz n) then vz (bmax b) else vz (bmin b)) in
  if is_front alt p near then InFrontOf
  else if is_front alt p far then Clipped
  else Behind.

(** PlaneCollision.h 215-225 *)
Definition relation_point (alt : bool) (p : plane) (x : vec3) (eps : R) : relation :=
  let d := sgn_distance alt p x in
  if Rltb eps d then InFrontOf else if Rltb d (- eps) then Behind else Onto.

(** PlaneCollision.h 242-248 and ConeCollision.h 28-33: the rim point of the base that is furthest against the normal *)
Definition cone_rim_point (p : plane) (c : cone) : vec3 :=
  let off := cross (normal p) (cdirection c) in
  let off := cross off (cdirection c) in
  let off := normalize off in
  vadd (vadd (cpoint c) (vscale (cheight c) (cdirection c))) (vscale (cradius c) off).

(** PlaneCollision.h 236-251 *)
Definition is_front_cone (alt : bool) (p : plane) (c : cone) : bool :=
  if negb (is_front alt p (cpoint c)) then false else is_front alt p (cone_rim_point p c).

(** ConeCollision.h 26-40 *)
Definition closest_on_cone (alt : bool) (c : cone) (p : plane) : vec3 :=
  let q := cone_rim_point p c in
  if Rltb (plane_distance alt p q) (plane_distance alt p (cpoint c)) then q else cpoint c.

(** ConvexHull.h 48-52 *)
Definition hull_normalize (planes : list plane) : list plane := map plane_normalize planes.

(** ConvexHull.h 55-63: returns from the loop at the first plane that faces the point *)
Fixpoint hull_point_inside (alt : bool) (planes : list plane) (x : vec3) : bool :=
  match planes with
  | [] => true
  | p :: l => if is_front alt p x then false else hull_point_inside alt l x
  end.

(** ConvexHull.h 66-74 *)
Fixpoint hull_sphere_inside (alt : bool) (planes : list plane) (s : sphere) : bool :=
  match planes with
  | [] => true
  | p :: l => if Rltb (sradius s) (sgn_distance alt p (sorigin s)) then false else hull_sphere_inside alt l s
  end.

(** Frustum.h 25-33: the order of FrustumPlane *)
Record frustum := mkFrustum { fnear : plane; fleft : plane; fright : plane; ftop : plane; fbottom : plane; ffar : plane }.
Definition frustum_planes (f : frustum) : list plane := [fnear f; fleft f; fright f; ftop f; fbottom f; ffar f].

(** Frustum.h 53-106 *)
Definition frustum_plane (alt : bool) (r : vec4) : plane :=
  plane_normalize (plane_4 alt (- vx (xyz r)) (- vy (xyz r)) (- vz (xyz r)) (- w4 r)).
Definition add4 (a b : vec4) : vec4 := V4 (vadd (xyz a) (xyz b)) (w4 a + w4 b).
Definition sub4 (a b : vec4) : vec4 := V4 (vsub (xyz a) (xyz b)) (w4 a - w4 b).
Definition frustum_from (alt : bool) (m : mat4) : frustum :=
  {| fnear := frustum_plane alt (m2 m);
     fleft := frustum_plane alt (add4 (m3 m) (m0 m));
     fright := frustum_plane alt (sub4 (m3 m) (m0 m));
     ftop := frustum_plane alt (sub4 (m3 m) (m1 m));
     fbottom := frustum_plane alt (add4 (m3 m) (m1 m));
     ffar := frustum_plane alt (sub4 (m3 m) (m2 m)) |}.

(** Frustum.h 109-138: the out parameter keeps its initial value (0, 0, 0) if there is no intersection *)
Definition corner_of_hit (h : hit) : option vec3 :=
  match h with Miss => Some vzero | Hit p => Some p | HitInf => None end.
Definition left_top (alt neg : bool) (f : frustum) (eps : R) : option vec3 :=
  corner_of_hit (plane_plane_plane alt neg (ffar f) (ftop f) (fleft f) eps).
Definition left_bottom (alt neg : bool) (f : frustum) (eps : R) : option vec3 :=
  corner_of_hit (plane_plane_plane alt neg (ffar f) (fbottom f) (fleft f) eps).
Definition right_top (alt neg : bool) (f : frustum) (eps : R) : option vec3 :=
  corner_of_hit (plane_plane_plane alt neg (ffar f) (ftop f) (fright f) eps).
Definition right_bottom (alt neg : bool) (f : frustum) (eps : R) : option vec3 :=
  corner_of_hit (plane_plane_plane alt neg (ffar f) (fbottom f) (fright f) eps).
