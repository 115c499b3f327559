(** The volumes of spirals (C83). *)
From Coq Require Import Reals Arith Bool.
From Verif Require Import Model.Vec Model.Interp Model.MeshGen Spec.MeshGenSpec Spec.VolumeSpec.
Local Open Scope R_scope.

(** Whether, seen from above, spiral and tube have different proportions: 0 if both are circles *)
Definition skewed (d : spiral) : R := x2 (sp_ring d) * vz (sp_tube d) - y2 (sp_ring d) * vx (sp_tube d).

(** The cells of a spiral are not flat: what the choice of the diagonals adds, because the cells rise, and because of different proportions (with four segments around the tube, as for tori) *)
Definition bent_spiral (d : spiral) : R :=
  let U := Nat.max 3 (sp_u d) in let V := Nat.max 3 (sp_v d) in let T := spiral_segments d in
  sp_displacement d / INR U * sin (2 * PI / INR U) * (vx (sp_tube d) * vz (sp_tube d)) / 12 *
  (if sp_alt d then if Nat.odd T && Nat.odd V then sin (2 * PI / INR V) * tan (2 * PI / INR V) else 0 else 2 * INR T * INR V * sin (PI / INR V) ^ 2).
Definition bent_skew (d : spiral) : R :=
  let U := Nat.max 3 (sp_u d) in let V := Nat.max 3 (sp_v d) in let T := spiral_segments d in
  if sp_alt d && (V =? 4)%nat
  then skewed d * vy (sp_tube d) / 3 * (if (U =? 4)%nat then INR T else (cos (2 * PI / INR U) - 1) / (2 * cos (2 * PI / INR U)) * (-1) ^ T * sin (4 * PI * Rmax 0 (sp_turns d)))
  else 0.
(** The volume of the mesh, and that of the solid itself; where a quarter turn is not completed, a skewed spiral has more or less than its share *)
Definition spiral_volume (d : spiral) : R :=
  let turns := Rmax 0 (sp_turns d) in
  vy (sp_tube d) * ngon (Nat.max 3 (sp_v d)) * ((x2 (sp_ring d) * vz (sp_tube d) + y2 (sp_ring d) * vx (sp_tube d)) * turns * ngon (Nat.max 3 (sp_u d)) + skewed d / 4 * sin (4 * PI * turns))
  + bent_spiral d + bent_skew d.
Definition exact_spiral (d : spiral) : R :=
  let turns := Rmax 0 (sp_turns d) in
  vy (sp_tube d) * PI * ((x2 (sp_ring d) * vz (sp_tube d) + y2 (sp_ring d) * vx (sp_tube d)) * turns * PI + skewed d / 4 * sin (4 * PI * turns)).
