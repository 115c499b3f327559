(** What keyframes should give in double precision (C94). *)
From Coq Require Import ZArith Reals List.
From Flocq Require Import Core IEEE754.BinarySingleNaN.
From Verif Require Import Model.Scalar Model.PlaneFloat Model.Keyframe Spec.ClipFloatSpec.
Import ListNotations.
Local Open Scope R_scope.

(** Frames that are exact in double precision, and keys of moderate size *)
Definition small_frames (kfs : list (keyframe fvec)) : Prop := forall k, In k kfs -> (kf_frame k <= 2 ^ 53)%Z.
Definition tame_keys (kfs : list (keyframe fvec)) : Prop := forall k, In k kfs -> tame_vec (kf_key k).

(** The components of a vector *)
Definition component (c : fvec -> b64) : Prop := c = fx \/ c = fy \/ c = fz.
(** [x] is on the way from [a] to [b]. *)
Definition on_way (a x b : b64) : Prop := is_finite x = true /\ (B2R a <= B2R x <= B2R b \/ B2R b <= B2R x <= B2R a).
(** On the way from [a] to [b], [x] comes not after [y]. *)
Definition not_after (a x y b : b64) : Prop := (B2R a <= B2R b -> B2R x <= B2R y) /\ (B2R b <= B2R a -> B2R y <= B2R x).

(** Two keyframes without another one between them *)
Definition neighbours (kfs : list (keyframe fvec)) (k1 k2 : keyframe fvec) : Prop :=
  In k1 kfs /\ In k2 kfs /\ (kf_frame k1 < kf_frame k2)%Z /\ forall k, In k kfs -> (kf_frame k <= kf_frame k1)%Z \/ (kf_frame k2 <= kf_frame k)%Z.
(** The values of a track, by frame, show the keys at their frames and go from each key to the next one without turning back. *)
Definition steady (kfs : list (keyframe fvec)) (values : list fvec) : Prop :=
  forall k1 k2 i v, neighbours kfs k1 k2 -> nth_error values i = Some v -> (kf_frame k1 <= Z.of_nat i <= kf_frame k2)%Z ->
    (Z.of_nat i = kf_frame k1 -> v = kf_key k1) /\ (Z.of_nat i = kf_frame k2 -> v = kf_key k2) /\
    forall c, component c -> on_way (c (kf_key k1)) (c v) (c (kf_key k2)) /\
      forall j w, nth_error values j = Some w -> (Z.of_nat i <= Z.of_nat j <= kf_frame k2)%Z -> not_after (c (kf_key k1)) (c v) (c w) (c (kf_key k2)).

(** A box that contains a vector, and one that contains all keys *)
Definition in_bounds (lo hi v : fvec) : Prop := forall c, component c -> is_finite (c v) = true /\ B2R (c lo) <= B2R (c v) <= B2R (c hi).
Definition keys_in (lo hi : fvec) (kfs : list (keyframe fvec)) : Prop := forall k, In k kfs -> in_bounds lo hi (kf_key k).
