(** What the getters of projections and transforms must return, for C49 and C50: the values last set, and no cache. *)
From Coq Require Import ZArith Reals List Bool.
From Verif Require Import Model.Vec Model.Plane Model.Transforms.
Import ListNotations.
Local Open Scope R_scope.

(** The values last set in a projection. *)
Record pvalues := mkPV { vnear : R; vfar : R; vfov : R; vaspect : R; vflags : Z; vortho : bool; vsize : vec2 }.
Definition pvalues_default : pvalues := mkPV 1 1000 (PI / 4) 1 0 false (V2 0 0).
Section Projection.
Variable M : Type.
Variable perspective : R -> R -> R -> R -> Z -> M.
Variable orthogonal : R -> R -> R -> R -> Z -> M.
Definition projection_matrix (v : pvalues) (flags : Z) : M :=
  if vortho v then orthogonal (x2 (vsize v)) (y2 (vsize v)) (vnear v) (vfar v) flags
  else perspective (vaspect v) (vnear v) (vfar v) (vfov v) flags.
Fixpoint proj_expected (v : pvalues) (os : list proj_op) : list M :=
  match os with
  | [] => []
  | o :: r =>
    match o with
    | PNear a => proj_expected (mkPV a (vfar v) (vfov v) (vaspect v) (vflags v) (vortho v) (vsize v)) r
    | PFar a => proj_expected (mkPV (vnear v) a (vfov v) (vaspect v) (vflags v) (vortho v) (vsize v)) r
    | PFov a => proj_expected (mkPV (vnear v) (vfar v) a (vaspect v) (vflags v) (vortho v) (vsize v)) r
    | PAspect a => proj_expected (mkPV (vnear v) (vfar v) (vfov v) a (vflags v) (vortho v) (vsize v)) r
    | POrtho a => proj_expected (mkPV (vnear v) (vfar v) (vfov v) (vaspect v) (vflags v) a (vsize v)) r
    | PSize a => proj_expected (mkPV (vnear v) (vfar v) (vfov v) (vaspect v) (vflags v) (vortho v) a) r
    | PFlags a => proj_expected (mkPV (vnear v) (vfar v) (vfov v) (vaspect v) a (vortho v) (vsize v)) r
    | PGet => projection_matrix v (vflags v) :: proj_expected v r
    | PGetWith f => projection_matrix v f :: proj_expected v r
    end
  end.
End Projection.

(** The matrix of a 2D transform takes v to position + rotation (scale v). *)
Definition matrix2_of (pos : vec2) (angle : R) (scale : vec2) (m : affine2) : Prop :=
  forall v, transform_vector2 m v =
    add2 pos (V2 (cos angle * (x2 scale * x2 v) - sin angle * (y2 scale * y2 v)) (sin angle * (x2 scale * x2 v) + cos angle * (y2 scale * y2 v))).
(** [ms] are the matrices expected from the calls [os], [turned]: the position after Turn *)
Fixpoint t2_expected (turned : vec2 -> R -> vec2 -> vec2) (pos : vec2) (angle : R) (scale : vec2) (os : list t2_op) (ms : list affine2) : Prop :=
  match os with
  | [] => ms = []
  | T2Pos p :: r => t2_expected turned p angle scale r ms
  | T2Rot a :: r => t2_expected turned pos a scale r ms
  | T2Scale s :: r => t2_expected turned pos angle s r ms
  | T2Turn a p :: r => t2_expected turned (turned pos a p) (angle + a) scale r ms
  | T2Get :: r => match ms with m :: ms' => matrix2_of pos angle scale m /\ t2_expected turned pos angle scale r ms' | [] => False end
  end.

(** The same in 3D. *)
Definition matrix3_of (pos : vec3) (q : quat) (scale : vec3) (m : affine) : Prop :=
  forall v, transform_vector m v = vadd pos (rotate q (V3 (vx scale * vx v) (vy scale * vy v) (vz scale * vz v))).
Fixpoint t3_expected (qmul : quat -> quat -> quat) (pos : vec3) (q : quat) (scale : vec3) (os : list t3_op) (ms : list affine) : Prop :=
  match os with
  | [] => ms = []
  | T3Pos p :: r => t3_expected qmul p q scale r ms
  | T3Rot a :: r => t3_expected qmul pos a scale r ms
  | T3Scale s :: r => t3_expected qmul pos q s r ms
  | T3MoveGlobal d :: r => t3_expected qmul (vadd pos d) q scale r ms
  | T3MoveLocal d :: r => t3_expected qmul (vadd pos (rotate q d)) q scale r ms
  | T3Turn a p :: r => t3_expected qmul (vadd p (rotate a (vsub pos p))) (qmul q a) scale r ms
  | T3Get :: r => match ms with m :: ms' => matrix3_of pos q scale m /\ t3_expected qmul pos q scale r ms' | [] => False end
  end.

Definition unit_quat (q : quat) : Prop := qx q * qx q + qy q * qy q + qz q * qz q + qw q * qw q = 1.
(** Rotation by [a], a vector of length 1, and half angle [h]. *)
Definition axis_angle (a : vec3) (h : R) : quat := Q4 (sin h * vx a) (sin h * vy a) (sin h * vz a) (cos h).
(** Rotation about the pivot in the plane. *)
Definition rotated2 (pos : vec2) (angle : R) (pivot : vec2) : vec2 :=
  let o := sub2 pos pivot in add2 pivot (V2 (cos angle * x2 o - sin angle * y2 o) (sin angle * x2 o + cos angle * y2 o)).
