(** include/Geom/Projection.h, Transform2.h and Transform3.h: values with a matrix that is computed on demand. *)
From Coq Require Import ZArith Reals List Bool.
From Verif Require Import Model.Scalar Model.Vec Model.Plane.
Import ListNotations.
Local Open Scope R_scope.

(** ** Projection.h *)
Section Projection.
(** Gs::ProjectionMatrix4T: the matrix type, Perspective(aspect, near, far, fov, flags) and Orthogonal(width, height, near, far, flags), which are not in /repo. *)
Variable M : Type.
Variable perspective : R -> R -> R -> R -> Z -> M.
Variable orthogonal : R -> R -> R -> R -> Z -> M.

(** 166-177: the fields.  [pmatrix]: the content of the cache. *)
Record projection := mkProjection {
  pnear : R; pfar : R; pfov : R; paspect : R; pflags : Z; portho : bool; psize : vec2; pmatrix : M; pchanged : bool }.
(** 166-177, default member values; [m]: whatever the matrix holds at first *)
Definition projection_new (m : M) : projection := mkProjection 1 1000 (PI * (1 / 4)) 1 0 false (V2 0 0) m true.

(** 37-41 *)
Definition set_near (p : projection) (v : R) : projection := mkProjection v (pfar p) (pfov p) (paspect p) (pflags p) (portho p) (psize p) (pmatrix p) true.
(** 50-54 *)
Definition set_far (p : projection) (v : R) : projection := mkProjection (pnear p) v (pfov p) (paspect p) (pflags p) (portho p) (psize p) (pmatrix p) true.
(** 63-67 *)
Definition set_fov (p : projection) (v : R) : projection := mkProjection (pnear p) (pfar p) v (paspect p) (pflags p) (portho p) (psize p) (pmatrix p) true.
(** 76-80 *)
Definition set_aspect (p : projection) (v : R) : projection := mkProjection (pnear p) (pfar p) (pfov p) v (pflags p) (portho p) (psize p) (pmatrix p) true.
(** 89-96 *)
Definition set_ortho (p : projection) (o : bool) : projection :=
  if negb (Bool.eqb (portho p) o) then mkProjection (pnear p) (pfar p) (pfov p) (paspect p) (pflags p) o (psize p) (pmatrix p) true else p.
(** 105-113 *)
Definition set_ortho_size (p : projection) (s : vec2) : projection :=
  if negb (Reqb (x2 (psize p)) (x2 s)) || negb (Reqb (y2 (psize p)) (y2 s))
  then mkProjection (pnear p) (pfar p) (pfov p) (paspect p) (pflags p) (portho p) s (pmatrix p) (if portho p then true else pchanged p)
  else p.
(** 125-132 *)
Definition set_flags (p : projection) (f : Z) : projection :=
  if negb (pflags p =? f)%Z then mkProjection (pnear p) (pfar p) (pfov p) (paspect p) f (portho p) (psize p) (pmatrix p) true else p.
(** 157-163, GetMatrix(matrix, flags) *)
Definition get_matrix_with (p : projection) (flags : Z) : M :=
  if portho p then orthogonal (x2 (psize p)) (y2 (psize p)) (pnear p) (pfar p) flags
  else perspective (paspect p) (pnear p) (pfar p) (pfov p) flags.
(** 144-152, GetMatrix(): the matrix returned and the object afterwards *)
Definition get_matrix (p : projection) : M * projection :=
  if pchanged p
  then let m := get_matrix_with p (pflags p) in
       (m, mkProjection (pnear p) (pfar p) (pfov p) (paspect p) (pflags p) (portho p) (psize p) m false)
  else (pmatrix p, p).

Inductive proj_op := PNear (v : R) | PFar (v : R) | PFov (v : R) | PAspect (v : R) | POrtho (o : bool) | PSize (s : vec2) | PFlags (f : Z) | PGet | PGetWith (f : Z).
(** A sequence of calls, and the matrices returned by it. *)
Fixpoint proj_run (p : projection) (os : list proj_op) : list M :=
  match os with
  | [] => []
  | PNear v :: r => proj_run (set_near p v) r
  | PFar v :: r => proj_run (set_far p v) r
  | PFov v :: r => proj_run (set_fov p v) r
  | PAspect v :: r => proj_run (set_aspect p v) r
  | POrtho o :: r => proj_run (set_ortho p o) r
  | PSize s :: r => proj_run (set_ortho_size p s) r
  | PFlags f :: r => proj_run (set_flags p f) r
  | PGet :: r => let (m, p') := get_matrix p in m :: proj_run p' r
  | PGetWith f :: r => get_matrix_with p f :: proj_run p r
  end.
End Projection.
Arguments mkProjection {M}.
Arguments pnear {M}. Arguments pfar {M}. Arguments pfov {M}. Arguments paspect {M}. Arguments pflags {M}. Arguments portho {M}. Arguments psize {M}.
Arguments pmatrix {M}. Arguments pchanged {M}.

(** ** Transform2.h *)
(** Gs::AffineMatrix3T: two rows and a translation; SetRotationAndScale: rotation by the angle after scaling *)
Record affine2 := mkAffine2 { lin00 : R; lin01 : R; lin10 : R; lin11 : R; trans2 : vec2 }.
Definition transform_vector2 (m : affine2) (v : vec2) : vec2 :=
  V2 (lin00 m * x2 v + lin01 m * y2 v + x2 (trans2 m)) (lin10 m * x2 v + lin11 m * y2 v + y2 (trans2 m)).
Definition set_position_2 (m : affine2) (p : vec2) : affine2 := mkAffine2 (lin00 m) (lin01 m) (lin10 m) (lin11 m) p.
Definition set_rotation_and_scale (m : affine2) (a : R) (s : vec2) : affine2 :=
  mkAffine2 (cos a * x2 s) (- sin a * y2 s) (sin a * x2 s) (cos a * y2 s) (trans2 m).

(** Transform2.h 106-111: the fields *)
Record transform2 := mkT2 { t2pos : vec2; t2rot : R; t2scale : vec2; t2matrix : affine2; t2changed : bool }.
(** 37-42 *)
Definition transform2_new (m : affine2) : transform2 := mkT2 (V2 0 0) 0 (V2 1 1) m true.
(** 44-48, 55-59, 66-70 *)
Definition set_position2 (t : transform2) (p : vec2) : transform2 := mkT2 p (t2rot t) (t2scale t) (t2matrix t) true.
Definition set_rotation2 (t : transform2) (a : R) : transform2 := mkT2 (t2pos t) a (t2scale t) (t2matrix t) true.
Definition set_scale2 (t : transform2) (s : vec2) : transform2 := mkT2 (t2pos t) (t2rot t) s (t2matrix t) true.
(** 77-86 *)
Definition get_matrix2 (t : transform2) : affine2 * transform2 :=
  if t2changed t
  then let m := set_rotation_and_scale (set_position_2 (t2matrix t) (t2pos t)) (t2rot t) (t2scale t) in
       (m, mkT2 (t2pos t) (t2rot t) (t2scale t) m false)
  else (t2matrix t, t).
(** 88-102 *)
Definition turn2 (t : transform2) (rotation : R) (pivot : vec2) : transform2 :=
  let offset := sub2 (t2pos t) pivot in
  let move := V2 (sin rotation * x2 offset - x2 offset) (cos rotation * y2 offset - y2 offset) in
  mkT2 (add2 (t2pos t) move) (t2rot t + rotation) (t2scale t) (t2matrix t) true.

Inductive t2_op := T2Pos (p : vec2) | T2Rot (a : R) | T2Scale (s : vec2) | T2Turn (a : R) (pivot : vec2) | T2Get.
Fixpoint t2_run (t : transform2) (os : list t2_op) : list affine2 :=
  match os with
  | [] => []
  | T2Pos p :: r => t2_run (set_position2 t p) r
  | T2Rot a :: r => t2_run (set_rotation2 t a) r
  | T2Scale s :: r => t2_run (set_scale2 t s) r
  | T2Turn a p :: r => t2_run (turn2 t a p) r
  | T2Get :: r => let (m, t') := get_matrix2 t in m :: t2_run t' r
  end.

(** ** Transform3.h *)
(** Gs::QuaternionT and its product with a vector: v + 2w (u x v) + 2 u x (u x v) with vector part u *)
Record quat := Q4 { qx : R; qy : R; qz : R; qw : R }.
Definition qvec (q : quat) : vec3 := V3 (qx q) (qy q) (qz q).
Definition rotate (q : quat) (v : vec3) : vec3 :=
  let uv := cross (qvec q) v in vadd v (vadd (vscale (2 * qw q) uv) (vscale 2 (cross (qvec q) uv))).
Definition qone : quat := Q4 0 0 0 1.
(** Hamilton's product *)
Definition hamilton (a b : quat) : quat :=
  Q4 (qw a * qx b + qx a * qw b + qy a * qz b - qz a * qy b) (qw a * qy b - qx a * qz b + qy a * qw b + qz a * qx b)
     (qw a * qz b + qx a * qy b - qy a * qx b + qz a * qw b) (qw a * qw b - qx a * qx b - qy a * qy b - qz a * qz b).
(** Gs::AffineMatrix4T::SetPosition, Gs::QuaternionToMatrix (sets the rotation part), Gs::Scale (scales the columns) *)
Definition set_position_3 (m : affine) (p : vec3) : affine := mkAffine (row0 m) (row1 m) (row2 m) p.
Definition quaternion_to_matrix (m : affine) (q : quat) : affine :=
  let x := qx q in let y := qy q in let z := qz q in let w := qw q in
  mkAffine (V3 (1 - 2 * (y * y + z * z)) (2 * (x * y - z * w)) (2 * (x * z + y * w)))
           (V3 (2 * (x * y + z * w)) (1 - 2 * (x * x + z * z)) (2 * (y * z - x * w)))
           (V3 (2 * (x * z - y * w)) (2 * (y * z + x * w)) (1 - 2 * (x * x + y * y))) (trans m).
Definition vmul (a b : vec3) : vec3 := V3 (vx a * vx b) (vy a * vy b) (vz a * vz b).
Definition scale_matrix (m : affine) (s : vec3) : affine := mkAffine (vmul (row0 m) s) (vmul (row1 m) s) (vmul (row2 m) s) (trans m).

(** Transform3.h 127-132: the fields *)
Record transform3 := mkT3 { t3pos : vec3; t3rot : quat; t3scale : vec3; t3matrix : affine; t3changed : bool }.
(** 39-43 *)
Definition transform3_new (m : affine) : transform3 := mkT3 vzero qone (V3 1 1 1) m true.
(** 53-57, 64-68, 75-79 *)
Definition set_position3 (t : transform3) (p : vec3) : transform3 := mkT3 p (t3rot t) (t3scale t) (t3matrix t) true.
Definition set_rotation3 (t : transform3) (q : quat) : transform3 := mkT3 (t3pos t) q (t3scale t) (t3matrix t) true.
Definition set_scale3 (t : transform3) (s : vec3) : transform3 := mkT3 (t3pos t) (t3rot t) s (t3matrix t) true.
(** 86-96 *)
Definition get_matrix3 (t : transform3) : affine * transform3 :=
  if t3changed t
  then let m := scale_matrix (quaternion_to_matrix (set_position_3 (t3matrix t) (t3pos t)) (t3rot t)) (t3scale t) in
       (m, mkT3 (t3pos t) (t3rot t) (t3scale t) m false)
  else (t3matrix t, t).
(** 99-103 *)
Definition move_global (t : transform3) (d : vec3) : transform3 := mkT3 (vadd (t3pos t) d) (t3rot t) (t3scale t) (t3matrix t) true.
(** 106-109 *)
Definition move_local (t : transform3) (d : vec3) : transform3 := move_global t (rotate (t3rot t) d).
(** 112-123; [qmul a b] is Gs' product a * b of quaternions, whose order of composition is GaussianLib's choice *)
Definition turn3 (qmul : quat -> quat -> quat) (t : transform3) (rotation : quat) (pivot : vec3) : transform3 :=
  let offset := vsub (t3pos t) pivot in
  let move := vsub (rotate rotation offset) offset in
  mkT3 (vadd (t3pos t) move) (qmul (t3rot t) rotation) (t3scale t) (t3matrix t) true.

Inductive t3_op := T3Pos (p : vec3) | T3Rot (q : quat) | T3Scale (s : vec3) | T3MoveGlobal (d : vec3) | T3MoveLocal (d : vec3) | T3Turn (q : quat) (pivot : vec3) | T3Get.
Fixpoint t3_run (qmul : quat -> quat -> quat) (t : transform3) (os : list t3_op) : list affine :=
  match os with
  | [] => []
  | T3Pos p :: r => t3_run qmul (set_position3 t p) r
  | T3Rot q :: r => t3_run qmul (set_rotation3 t q) r
  | T3Scale s :: r => t3_run qmul (set_scale3 t s) r
  | T3MoveGlobal d :: r => t3_run qmul (move_global t d) r
  | T3MoveLocal d :: r => t3_run qmul (move_local t d) r
  | T3Turn q p :: r => t3_run qmul (turn3 qmul t q p) r
  | T3Get :: r => let (m, t') := get_matrix3 t in m :: t3_run qmul t' r
  end.
