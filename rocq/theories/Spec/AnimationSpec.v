(** The pose of an animated object, for C81 and C82: three tracks of keyframes, for position, rotation and scale. *)
From Coq Require Import ZArith Reals List.
From Verif Require Import Model.Vec Model.Plane Model.Transforms Model.Keyframe Spec.KeyframeSpec Spec.TransformSpec.
Import ListNotations.

(** The point at the fraction [t] of the way from [a] to [b]. *)
Definition between (a b : vec3) (t : R) : vec3 :=
  V3 ((1 - t) * vx a + t * vx b) ((1 - t) * vy a + t * vy b) ((1 - t) * vz a + t * vz b).
Definition straight (inf : vec3 -> vec3 -> vec3) : interp vec3 := mkInterp between inf.

(** The value of a track at a frame; a track without keyframes has the value [d] everywhere. *)
Definition value_at {A} (ip : interp A) (kfs : list (keyframe A)) (d : A) (f : Z) (v : A) : Prop :=
  (kfs = [] /\ v = d) \/ (kfs <> [] /\ track_value ip kfs f v).

Record pose := mkPose { at_position : vec3; at_rotation : quat; at_scale : vec3 }.

Section Pose.
Variable turn : interp quat.                 (* interpolation of rotations *)
Variable inf : vec3 -> vec3 -> vec3.         (* not used for distinct frames *)
Variables (ps : list (keyframe vec3)) (rs : list (keyframe quat)) (ss : list (keyframe vec3)).
Definition pose_at (f : Z) (p : pose) : Prop :=
  value_at (straight inf) ps (V3 0 0 0) f (at_position p) /\
  value_at turn rs (Q4 0 0 0 1) f (at_rotation p) /\
  value_at (straight inf) ss (V3 1 1 1) f (at_scale p).
(** Between two poses. *)
Definition mixed (p q : pose) (t : R) : pose :=
  mkPose (between (at_position p) (at_position q) t) (ip_lerp turn (at_rotation p) (at_rotation q) t) (between (at_scale p) (at_scale q) t).
(** The matrix scales, then rotates, then moves. *)
Definition shows (m : affine) (p : pose) : Prop := matrix3_of (at_position p) (at_rotation p) (at_scale p) m.
End Pose.

(** Three tracks that begin at frame 0: the frames of each are distinct. *)
Definition proper_tracks (ps : list (keyframe vec3)) (rs : list (keyframe quat)) (ss : list (keyframe vec3)) : Prop :=
  (valid_frames ps /\ valid_frames rs /\ valid_frames ss) /\ (distinct_frames ps /\ distinct_frames rs /\ distinct_frames ss) /\
  In 0%Z (map kf_frame ps ++ map kf_frame rs ++ map kf_frame ss).
