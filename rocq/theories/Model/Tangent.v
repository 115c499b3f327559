(** include/Geom/TangentSpace.h over exact reals. *)
From Coq Require Import Reals Bool.
From Verif Require Import Model.Scalar Model.Vec Model.Tri.
Local Open Scope R_scope.

(** TangentSpace.h 36-67, ComputeTangentSpace: tangent, bitangent, normal.  [eps]: Gs::Epsilon *)
Definition tangent_space (eps : R) (t : triangle) (st : triangle2) : vec3 * vec3 * vec3 :=
  let v1 := vsub (pb t) (pa t) in
  let v2 := vsub (pc t) (pa t) in
  let st1 := sub2 (b2 st) (a2 st) in
  let st2 := sub2 (c2 st) (a2 st) in
  let tangent := normalize (vsub (vscale (y2 st2) v1) (vscale (y2 st1) v2)) in
  let bitangent := normalize (vsub (vscale (x2 st2) v1) (vscale (x2 st1) v2)) in
  let normal := normalize (cross v1 v2) in
  if Rltb eps (dot (cross tangent bitangent) normal) then (vopp tangent, vopp bitangent, normal)
  else (tangent, bitangent, normal).
