(** Sampling a keyframe sequence into a matrix: sources/KeyframeSequence.cpp:155-175. *)
From Coq Require Import ZArith Reals List Bool.
From Verif Require Import Model.Scalar Model.Vec Model.Plane Model.Transforms Model.Keyframe Model.Playback.
Local Open Scope R_scope.

(** Gs::Lerp for vectors, a + (b - a) t *)
Definition lerp3 (a b : vec3) (t : R) : vec3 := vadd a (vscale t (vsub b a)).

Section Animation.
(** Gs::Slerp, and what the interpolations give for an infinite parameter; GaussianLib is not in /repo *)
Variable slerp : quat -> quat -> R -> quat.
Variable lerp_inf : vec3 -> vec3 -> vec3.
Variable slerp_inf : quat -> quat -> quat.
Definition vec_interp : interp vec3 := mkInterp lerp3 lerp_inf.
Definition quat_interp : interp quat := mkInterp slerp slerp_inf.

(** The sequences of the library, KeyframeSequence.cpp:112-124: the initial keys are the zero vector, the identity
    (Gs::Quaternion()) and the vector (1, 1, 1). *)
Definition build_animation := build_keys vec_interp quat_interp vzero (V3 1 1 1) qone.

(** KeyframeSequence.cpp:155-170.  [None]: a key outside of the arrays is read. *)
Definition interpolate_matrix (s : @kseq vec3 quat) (m : affine) (from to : Z) (t : R) : option affine :=
  if Z.ltb (frame_begin s) (frame_end s) then
    match interpolate vec_interp quat_interp s from to t with
    | Sampled position rotation scale =>
        let m := set_position_3 m position in
        let m := quaternion_to_matrix m rotation in
        Some (scale_matrix m scale)
    | NoEffect => Some m
    | OutOfBounds => None
    end
  else Some m.

(** KeyframeSequence.cpp:172-175 *)
Definition interpolate_playback (s : @kseq vec3 quat) (m : affine) (p : playback RScalar) : option affine :=
  interpolate_matrix s m (frame (pf p)) (nextFrame (pf p)) (interpolator (pf p)).
End Animation.
