(** Model of the vertices of generated pipes in C++ [double]: IEEE binary64 with rounding to nearest.
    [std::sin] and [std::cos] are parameters. *)
From Coq Require Import ZArith Bool.
From Flocq Require Import IEEE754.BinarySingleNaN.
From Verif Require Import Model.Scalar Model.BoxFloat Model.PlaneFloat Model.ClipFloat Model.KeyframeFloat Model.MeshFloat.

Section Functions.
  Variables (fsin fcos : b64 -> b64).

  (** MeshGeneratorPipe.cpp 38, 43-75: vertex [v] of column [u] of the outer (first) or inner (second) mantle, with [n] columns and [m] rows;
      line 46 starts again with angle 0 *)
  Definition fpipe_mantle (outer : bool) (n m : Z) (ox oz ix iz h : b64) (u : nat) (v : Z) : fvec :=
    let rx := if outer then ox else ix in let rz := if outer then oz else iz in
    FV (fring_x fsin n rx u) (flerp (fhalf_height h) (Bopp (fhalf_height h)) (fshare m v)) (fring_z fcos n rz u).
  (** 80, 93-94, 97-112 and 123: vertex [v] of column [u] of the bottom or top cover, with [c] rings between the inner and the outer mantle *)
  Definition fpipe_cover (top : bool) (n c : Z) (ox oz ix iz h : b64) (u : nat) (v : Z) : fvec :=
    let y := b64_mul (fhalf_height h) (b64_of_Z (if top then 1 else -1)) in
    flerp3 (FV (fring_x fsin n ix u) y (fring_z fcos n iz u)) (FV (fring_x fsin n ox u) y (fring_z fcos n oz u)) (fshare c v).
End Functions.
