(** Model of the texture coordinates of generated meshes and of the faces of generated cuboids in C++ [double]: IEEE binary64 with rounding to nearest.
    [std::sin] and [std::cos] are parameters. *)
From Coq Require Import ZArith Bool.
From Flocq Require Import IEEE754.BinarySingleNaN.
From Verif Require Import Model.Scalar Model.BoxFloat Model.PlaneFloat Model.ClipFloat Model.KeyframeFloat Model.MeshFloat.

(** Gs::Vector2T<double> *)
Record fvec2 := FV2 { f2x : b64; f2y : b64 }.

(** MeshGeneratorCylinder.cpp 54, 58; MeshGeneratorCone.cpp 58, 62; MeshGeneratorCapsule.cpp 58, 62; MeshGeneratorPie.cpp 60, 64; MeshGeneratorPipe.cpp 64, 68:
    vertex [v] of column [u] of a mantle with [n] columns and [m] rows *)
Definition fmantle_tex (n m u v : Z) : fvec2 := FV2 (fshare n (n - u)) (fshare m v).
(** MeshGeneratorBezierPatch.cpp 47-48 and 58-62; MeshGeneratorEllipsoid.cpp 36, 42 (never flipped) *)
Definition fgrid_tex (flip : bool) (n m j i : Z) : fvec2 := FV2 (fshare n j) (if flip then b64_sub b64_1 (fshare m i) else fshare m i).

(** MeshGeneratorCuboid.cpp 46-47 *)
Definition fface_share (n j : Z) : b64 := b64_mul (finv n) (b64_of_Z j).
(** 55 *)
Definition fface_tex (n m j i : Z) : fvec2 := FV2 (fface_share n j) (b64_sub b64_1 (fface_share m i)).
(** 49-50: the coordinates along the face, before it is turned *)
Definition fface_coord (size : b64) (n j : Z) : b64 := b64_sub (b64_mul size (fface_share n j)) (b64_div size (b64_of_Z 2)).

Section Functions.
  Variables (fsin fcos : b64 -> b64).
  (** MeshGeneratorCylinder.cpp 93-94, 102-106; MeshGeneratorPie.cpp 138-139, 147-151; MeshGeneratorCone.cpp 96-97, 105-106 (never flipped):
      vertex [v] of column [u] of a cover with [c] rings *)
  Definition fcover_tex (flip : bool) (n c : Z) (u : nat) (v : Z) : fvec2 :=
    let at_ (s : b64) := b64_add fhalf (b64_mul (b64_mul s fhalf) (fshare c v)) in
    let y := at_ (fcos (fangle n u)) in
    FV2 (at_ (fsin (fangle n u))) (if flip then b64_sub b64_1 y else y).
End Functions.
