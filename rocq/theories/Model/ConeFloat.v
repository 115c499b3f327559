(** Model of the vertices of generated ellipsoids and cones in C++ [double]: IEEE binary64 with rounding to nearest.
    [std::sin] and [std::cos] are parameters.  The conversion from [Gs::Spherical] to [Gs::Vector3] is not in the repository; for radius 1 it is taken to give
    sin theta * cos phi, sin theta * sin phi and cos theta. *)
From Coq Require Import ZArith Bool.
From Flocq Require Import IEEE754.BinarySingleNaN.
From Verif Require Import Model.Scalar Model.BoxFloat Model.PlaneFloat Model.ClipFloat Model.KeyframeFloat Model.MeshFloat.

Section Functions.
  Variables (fsin fcos : b64 -> b64).

  (** ** MeshGeneratorEllipsoid.cpp *)
  (** 36-37 *)
  Definition fhalf_turn (m v : Z) : b64 := b64_mul (fshare m v) fpi.
  (** 42-50: vertex [u] of ring [v], with [n] and [m] segments; y and z are swapped in line 47 *)
  Definition fellipsoid (n m : Z) (rx ry rz : b64) (u v : Z) : fvec :=
    let s := fsin (fhalf_turn m v) in
    FV (b64_mul (b64_mul s (fcos (fturn n u))) rx) (b64_mul (fcos (fhalf_turn m v)) ry) (b64_mul (b64_mul s (fsin (fturn n u))) rz).

  (** ** MeshGeneratorCone.cpp *)
  (** 38 and 45-49, 96-100: the vertices around the bottom *)
  Definition fcone_rim (n : Z) (rx rz h : b64) (u : nat) : fvec := FV (fring_x fsin n rx u) (Bopp (fhalf_height h)) (fring_z fcos n rz u).
  (** 37 *)
  Definition fcone_tip (h : b64) : fvec := FV b64_0 (fhalf_height h) b64_0.
  (** 60-65: vertex [v] of column [u] of the mantle, with [n] columns and [m] rows *)
  Definition fcone (n m : Z) (rx rz h : b64) (u : nat) (v : Z) : fvec := flerp3 (fcone_tip h) (fcone_rim n rx rz h u) (fshare m v).
  (** 103-109: vertex [v] of column [u] of the bottom, with [c] rings *)
  Definition fcone_cover (n c : Z) (rx rz h : b64) (u : nat) (v : Z) : fvec :=
    flerp3 (FV b64_0 (Bopp (fhalf_height h)) b64_0) (fcone_rim n rx rz h u) (fshare c v).
End Functions.
