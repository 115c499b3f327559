(** Model of the vertices of the half-spheres of generated capsules in C++ [double]: IEEE binary64 with rounding to nearest.
    [std::sin] and [std::cos] are parameters.  The conversion from [Gs::Spherical] to [Gs::Vector3] is not in the repository; for radius 1 it is taken to give
    sin theta * cos phi, sin theta * sin phi and cos theta.  The mantle (MeshGeneratorCapsule.cpp 34-69) is [fmantle] of Model/MeshFloat.v, with the same statements. *)
From Coq Require Import ZArith Bool.
From Flocq Require Import IEEE754.BinarySingleNaN.
From Verif Require Import Model.Scalar Model.BoxFloat Model.PlaneFloat Model.ClipFloat Model.KeyframeFloat Model.MeshFloat.

(** MeshGeneratorDetails.h 25 *)
Definition fpi05 : b64 := b64_mul fpi fhalf.

Section Functions.
  Variables (fsin fcos : b64 -> b64).

  (** MeshGeneratorCapsule.cpp 72: coverSide; the half-sphere at the top comes first *)
  Definition fside (top : bool) : b64 := b64_of_Z (if top then 1 else -1).
  (** 82-83 *)
  Definition fcap_theta (c v : Z) : b64 := b64_mul (fshare c v) fpi05.
  (** 88-89 *)
  Definition fcap_phi (top : bool) (n u : Z) : b64 := b64_add (b64_mul (fturn n u) (fside top)) fpi05.
  (** 92-94, 100-101: vertex [u] of ring [v], with [n] columns and [c] rings; y and z are swapped in line 93 *)
  Definition fcap (top : bool) (n c : Z) (rx ry rz h : b64) (u v : Z) : fvec :=
    let s := fsin (fcap_theta c v) in let phi := fcap_phi top n u in
    FV (b64_mul (b64_mul s (fcos phi)) rx)
       (b64_add (b64_mul (b64_mul (fcos (fcap_theta c v)) (fside top)) ry) (b64_mul (fhalf_height h) (fside top)))
       (b64_mul (b64_mul s (fsin phi)) rz).
End Functions.
