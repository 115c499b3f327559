(** Model of the texture coordinates of the covers of generated pipes in C++ [double]: IEEE binary64 with rounding to nearest.
    [std::sin] and [std::cos] are parameters. *)
From Coq Require Import ZArith Bool.
From Flocq Require Import IEEE754.BinarySingleNaN.
From Verif Require Import Model.Scalar Model.BoxFloat Model.PlaneFloat Model.ClipFloat Model.KeyframeFloat Model.MeshFloat Model.GridFloat.

(** MeshGeneratorPipe.cpp 91: one component of invRadius, from the outer radius *)
Definition fpipe_inv (o : b64) : b64 := b64_div b64_1 (b64_mul o (b64_of_Z 2)).
(** 113-114: one component of texCoordA or texCoordB *)
Definition fpipe_ring_tex (o x : b64) : b64 := b64_add fhalf (b64_mul x (fpipe_inv o)).
(** 116-120 *)
Definition fpipe_flip (flip : bool) (y : b64) : b64 := if flip then b64_sub b64_1 y else y.

Section Functions.
  Variables (fsin fcos : b64 -> b64).
  (** 97-125: vertex [v] of column [u] of the bottom or top cover, with [c] rings; [ox], [oz] are the outer and [ix], [iz] the inner radii *)
  Definition fpipe_tex (top : bool) (n c : Z) (ox oz ix iz : b64) (u : nat) (v : Z) : fvec2 :=
    FV2 (flerp (fpipe_ring_tex ox (fring_x fsin n ix u)) (fpipe_ring_tex ox (fring_x fsin n ox u)) (fshare c v))
        (flerp (fpipe_flip top (fpipe_ring_tex oz (fring_z fcos n iz u))) (fpipe_flip top (fpipe_ring_tex oz (fring_z fcos n oz u))) (fshare c v)).
End Functions.
