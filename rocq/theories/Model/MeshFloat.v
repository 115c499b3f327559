(** Model of the vertices of generated cylinders and tori in C++ [double]: IEEE binary64 with rounding to nearest.
    [std::sin] and [std::cos] are parameters.  [Gs::pi] is not in the repository; it is taken to be the nearest number to pi. *)
From Coq Require Import ZArith Bool.
From Flocq Require Import IEEE754.BinarySingleNaN.
From Verif Require Import Model.Scalar Model.BoxFloat Model.PlaneFloat Model.ClipFloat Model.KeyframeFloat.

(** MeshGeneratorDetails.h 23-24 *)
Definition fpi : b64 := @B754_finite 53 1024 false 7074237752028440 (-51) eq_refl.
Definition fpi2 : b64 := b64_mul fpi (b64_of_Z 2).
Definition fhalf : b64 := b64_div b64_1 (b64_of_Z 2).

(** MeshGeneratorCylinder.cpp 25-26, MeshGeneratorTorus.cpp 25-26: Gs::Real(1) / static_cast<Gs::Real>(segments) *)
Definition finv (n : Z) : b64 := b64_div b64_1 (b64_of_Z n).
(** static_cast<Gs::Real>(u) * inv *)
Definition fshare (n u : Z) : b64 := b64_mul (b64_of_Z u) (finv n).

Section Functions.
  Variables (fsin fcos : b64 -> b64).

  (** ** MeshGeneratorCylinder.cpp *)
  (** 28 *)
  Definition fstep (n : Z) : b64 := b64_mul (finv n) fpi2.
  (** 36, 64 and 78, 116: the angle after [u] rounds *)
  Fixpoint fangle (n : Z) (u : nat) : b64 :=
    match u with O => b64_0 | S u => b64_add (fangle n u) (fstep n) end.
  (** 41-45 and 93-97 *)
  Definition fring_x (n : Z) (rx : b64) (u : nat) : b64 := b64_mul (fsin (fangle n u)) rx.
  Definition fring_z (n : Z) (rz : b64) (u : nat) : b64 := b64_mul (fcos (fangle n u)) rz.
  (** 30 *)
  Definition fhalf_height (h : b64) : b64 := b64_mul h fhalf.
  (** 38-61: vertex [v] of column [u] of the mantle, with [n] columns and [m] rows *)
  Definition fmantle (n m : Z) (rx rz h : b64) (u : nat) (v : Z) : fvec :=
    FV (fring_x n rx u) (flerp (fhalf_height h) (Bopp (fhalf_height h)) (fshare m v)) (fring_z n rz u).
  (** 79, 82 and 100-112: vertex [v] of column [u] of the bottom or top cover, with [c] rings *)
  Definition fcover (top : bool) (n c : Z) (rx rz h : b64) (u : nat) (v : Z) : fvec :=
    let y := b64_mul (fhalf_height h) (b64_of_Z (if top then 1 else -1)) in
    flerp3 (FV b64_0 y b64_0) (FV (fring_x n rx u) y (fring_z n rz u)) (fshare c v).

  (** ** MeshGeneratorTorus.cpp *)
  (** 35-36, 46-47 *)
  Definition fturn (n u : Z) : b64 := b64_mul (fshare n u) fpi2.
  (** 38-54: vertex [u] of ring [v], with [n] and [m] segments *)
  Definition ftorus (n m : Z) (ring_x ring_z tx ty tz : b64) (u v : Z) : fvec :=
    let s0 := fsin (fturn m v) in let c0 := fcos (fturn m v) in
    let s1 := fsin (fturn n u) in let c1 := fcos (fturn n u) in
    FV (b64_add (b64_mul s1 ring_x) (b64_mul (b64_mul s1 s0) tx))
       (b64_mul c0 ty)
       (b64_add (b64_mul c1 ring_z) (b64_mul (b64_mul c1 s0) tz)).
End Functions.
