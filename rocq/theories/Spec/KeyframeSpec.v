(** What a keyframe track means, without reference to how it is built. *)
From Coq Require Import ZArith Reals List.
From Verif Require Import Model.Keyframe. (* types [keyframe] and [interp] only *)
Open Scope Z_scope.

Section Spec.
Context {A : Type}.
Variable ip : interp A.

(** [v] is the value of the track given by the keyframes [kfs] (in any order) at frame [f]. *)
Inductive track_value (kfs : list (keyframe A)) (f : Z) : A -> Prop :=
| tv_at k : In k kfs -> kf_frame k = f -> track_value kfs f (kf_key k)
| tv_between k1 k2 : In k1 kfs -> In k2 kfs -> kf_frame k1 < f < kf_frame k2 ->
    (forall k, In k kfs -> kf_frame k <= kf_frame k1 \/ kf_frame k2 <= kf_frame k) ->
    track_value kfs f (ip_lerp ip (kf_key k1) (kf_key k2) (IZR (f - kf_frame k1) / IZR (kf_frame k2 - kf_frame k1)))
| tv_before k1 : In k1 kfs -> f < kf_frame k1 -> (forall k, In k kfs -> kf_frame k1 <= kf_frame k) ->
    track_value kfs f (kf_key k1)
| tv_after k2 : In k2 kfs -> kf_frame k2 < f -> (forall k, In k kfs -> kf_frame k <= kf_frame k2) ->
    track_value kfs f (kf_key k2).

(** A well-formed track: frames are representable (below the greatest value, which wraps) and distinct. *)
Definition valid_frames (kfs : list (keyframe A)) : Prop := forall k, In k kfs -> 0 <= kf_frame k < 2 ^ 64 - 1.
Definition distinct_frames (kfs : list (keyframe A)) : Prop := NoDup (map kf_frame kfs).
End Spec.
