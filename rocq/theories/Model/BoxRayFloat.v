(** Model of the intersection of rays with boxes (AABBCollision.h) in C++ [double]: IEEE binary64 with rounding to nearest.
    Vectors and boxes of any number of components. *)
From Coq Require Import ZArith List Bool.
From Flocq Require Import IEEE754.BinarySingleNaN.
From Verif Require Import Model.Scalar Model.BoxFloat.
Import ListNotations.

(** std::numeric_limits<double>::max() *)
Definition b64_big : b64 := @Bmax_float 53 1024 b64_prec_gt_0 b64_prec_lt_emax.
(** std::max and std::min: the first argument unless the comparison is true. *)
Definition fmax2 (a b : b64) : b64 := if Bltb a b then b else a.
Definition fmin2 (a b : b64) : b64 := if Bltb b a then b else a.

(** One component of a ray and a box: ray.origin[i], ray.direction[i], box.min[i], box.max[i] *)
Record fslab := mkFSlab { fo : b64; fd : b64; flo : b64; fhi : b64 }.

(** AABBCollision.h 51-57: parameters of the near and the far side *)
Definition fparam (s : fslab) (bound : b64) : b64 := b64_mul (b64_sub bound (fo s)) (b64_div (b64_of_Z 1) (fd s)).
Definition fnear_far (s : fslab) : b64 * b64 :=
  let t1 := fparam s (flo s) in
  let t2 := fparam s (fhi s) in
  if Bltb t2 t1 then (t2, t1) else (t1, t2).

(** AABBCollision.h 40-67: the loop over the remaining components; [eps] is Gs::Epsilon<double>() *)
Fixpoint fslab_loop (eps : b64) (l : list fslab) (tmin tmax : b64) : option b64 :=
  match l with
  | [] => Some tmin
  | s :: l' =>
      if Bltb (Babs (fd s)) eps
      then if Bltb (fo s) (flo s) || Bltb (fhi s) (fo s) then None else fslab_loop eps l' tmin tmax
      else
        let (t1, t2) := fnear_far s in
        let tmin := fmax2 tmin t1 in
        let tmax := fmin2 tmax t2 in
        if Bltb tmax tmin then None else fslab_loop eps l' tmin tmax
  end.
(** AABBCollision.h 32-73 *)
Definition fbox_interp (eps : b64) (l : list fslab) : option b64 := fslab_loop eps l b64_0 b64_big.
(** AABBCollision.h 163-172 *)
Definition fbox_ray_test (eps : b64) (l : list fslab) : bool :=
  match fbox_interp eps l with Some t => Bleb b64_0 t | None => false end.
