(** Clipping of triangles in C++ [double]: TriangleCollision.h 411-527, PlaneCollision.h 95-99, and the interpolation of positions,
    MeshModifier.cpp 99-129.  IEEE binary64 with rounding to nearest; the products of [Gs::Dot] are added from left to right. *)
From Coq Require Import ZArith List Bool Arith.
From Flocq Require Import IEEE754.BinarySingleNaN.
From Verif Require Import Model.Scalar Model.BoxFloat Model.Plane Model.PlaneFloat.
From Verif Require Model.Clip.
Import ListNotations.

Definition b64_1 : b64 := b64_of_Z 1%Z.
(** Gs::Vector3T<double>, operator - *)
Definition fvsub (a b : fvec) : fvec := FV (b64_sub (fx a) (fx b)) (b64_sub (fy a) (fy b)) (b64_sub (fz a) (fz b)).

(** PlaneCollision.h 95-99 *)
Definition fplane_interp (alt : bool) (p : fplane) (o d : fvec) : b64 := b64_div (Bopp (fsgn_distance alt p o)) (fdot (fnormal p) d).

(** ClippedPolygon, TriangleCollision.h 413-425: the used part of the array; [None] is the failing assertion count < 4 *)
Definition fpoly := list fvec.
Definition fpoly_add (p : fpoly) (v : fvec) : option fpoly := if (length p <? 4)%nat then Some (p ++ [v]) else None.

(** The function AddVertex, 455-473 *)
Definition fclip_add (v : fvec) (r : relation) (s : option (fpoly * fpoly)) : option (fpoly * fpoly) :=
  match s with
  | None => None
  | Some (front, back) =>
      match r with
      | Onto => match fpoly_add front v, fpoly_add back v with Some f, Some b => Some (f, b) | _, _ => None end
      | InFrontOf => match fpoly_add front v with Some f => Some (f, back) | None => None end
      | Behind => match fpoly_add back v with Some b => Some (front, b) | None => None end
      | Clipped => Some (front, back)
      end
  end.

(** 446: the barycentric coordinates of the corners *)
Definition fcorner (i : nat) : fvec := match i with O => FV b64_1 b64_0 b64_0 | S O => FV b64_0 b64_1 b64_0 | _ => FV b64_0 b64_0 b64_1 end.
(** 507-518 *)
Definition fedge (i : nat) (t : b64) : fvec :=
  match i with O => FV (b64_sub b64_1 t) t b64_0 | S O => FV b64_0 (b64_sub b64_1 t) t | _ => FV t b64_0 (b64_sub b64_1 t) end.

(** 502: t >= T(0) && t <= T(1) *)
Definition in_unit (t : b64) : bool := Bleb b64_0 t && Bleb t b64_1.

(** The body of the loop, 491-523: edge i from corner [va] to corner [vb], number [j] *)
Definition fclip_edge (alt : bool) (p : fplane) (i j : nat) (va vb : fvec) (rj : relation) (s : option (fpoly * fpoly)) : option (fpoly * fpoly) :=
  let s :=
    if Clip.relation_eqb rj Onto then s else
    let t := fplane_interp alt p va (fvsub vb va) in
    if in_unit t then fclip_add (fedge i t) Onto s else s in
  if (0 <? j)%nat then fclip_add (fcorner j) rj s else s.

(** ClipTriangle, 441-527 *)
Definition fclip_triangle (alt : bool) (p : fplane) (a b c : fvec) (eps : b64) : option (relation * (fpoly * fpoly)) :=
  let r0 := frelation_point alt p a eps in
  let r1 := frelation_point alt p b eps in
  let r2 := frelation_point alt p c eps in
  let front r := negb (Clip.relation_eqb r Behind) in
  if front r0 && front r1 && front r2 then Some (InFrontOf, ([], []))
  else if negb (front r0) && negb (front r1) && negb (front r2) then Some (Behind, ([], []))
  else
    let s := fclip_add (fcorner 0) r0 (Some ([], [])) in
    let s := fclip_edge alt p 0 1 a b r1 s in
    let s := fclip_edge alt p 1 2 b c r2 s in
    let s := fclip_edge alt p 2 0 c a r0 s in
    match s with None => None | Some q => Some (Clipped, q) end.

(** InterpolateBarycentric, MeshModifier.cpp 120-126, for the three components of a position *)
Definition fblend (w : fvec) (a b c : b64) : b64 := b64_add (b64_add (b64_mul a (fx w)) (b64_mul b (fy w))) (b64_mul c (fz w)).
Definition fposition (w : fvec) (a b c : fvec) : fvec := FV (fblend w (fx a) (fx b) (fx c)) (fblend w (fy a) (fy b) (fy c)) (fblend w (fz a) (fz b) (fz c)).
