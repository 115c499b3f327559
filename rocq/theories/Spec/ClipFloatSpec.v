(** What cutting a triangle in double precision should give (C93). *)
From Coq Require Import Reals ZArith List Bool.
From Flocq Require Import Core IEEE754.BinarySingleNaN.
From Verif Require Import Model.Scalar Model.Vec Model.Plane Model.PlaneFloat Spec.PlaneSpec Spec.FloatSpec Spec.InterpSpec.
Import ListNotations.
Local Open Scope R_scope.

(** Differences of such numbers are moderate. *)
Definition tame (x : b64) : Prop := is_finite x = true /\ Rabs (B2R x) <= bpow radix2 499.
Definition tame_vec (v : fvec) : Prop := tame (fx v) /\ tame (fy v) /\ tame (fz v).

(** What rounding can change at an edge: one part in 2^47 of the terms of the distances, and 2^-1066 for products that underflow *)
Definition edge_slack (p : plane) (a b : vec3) : R :=
  bpow radix2 (-47) * (magnitude (Plane.normal p) a (distance p) + magnitude (Plane.normal p) b (distance p)) + bpow radix2 (-1066).

(** What underflow can add when the coordinates are rounded *)
Definition underflow (n : vec3) : R := bpow radix2 (-1072) * (Rabs (vx n) + Rabs (vy n) + Rabs (vz n)).

(** The corners of a triangle by number, around and around *)
Definition corner {A} (a b c : A) (i : nat) : A := match i with 1%nat => b | 2%nat => c | _ => a end.
(** Barycentric coordinates: of corner number i, and on the edge from corner i to the next one *)
Definition at_corner (i : nat) (w : vec3) : Prop := w = corner (V3 1 0 0) (V3 0 1 0) (V3 0 0 1) i.
Definition on_edge (i : nat) (w : vec3) : Prop :=
  exists s t, 0 <= s <= 1 /\ 0 <= t <= 1 /\ Rabs (s + t - 1) <= bpow radix2 (-53) /\ w = corner (V3 s t 0) (V3 0 s t) (V3 t 0 s) i.

(** The way around a triangle: its corners and the crossings of its edges, as far as they belong to the part of the side [front] *)
Definition part {A} (side_of : nat -> bool) (corners crossings : nat -> A) (front : bool) : list A :=
  flat_map (fun i => (if Bool.eqb (side_of i) front then [corners i] else []) ++
                     (if xorb (side_of i) (side_of (S i)) then [crossings i] else [])) [0; 1; 2]%nat.

(** Numbers for which the theorem holds: rounding changes the distances of the corners by less than the tolerance, and no corner is within the tolerance of the plane. *)
Definition clear_of (alt : bool) (p : plane) (eps : R) (x : vec3) : Prop := eps + slack p x < Rabs (side alt p x).
Definition cuttable (alt : bool) (p : fplane) (eps : b64) (a b c : fvec) : Prop :=
  moderate_plane p /\ is_finite eps = true /\ (tame_vec a /\ tame_vec b /\ tame_vec c) /\
  let pl := exact_plane p in
  (edge_slack pl (exact_vec a) (exact_vec b) <= B2R eps /\ edge_slack pl (exact_vec b) (exact_vec c) <= B2R eps /\ edge_slack pl (exact_vec c) (exact_vec a) <= B2R eps) /\
  (clear_of alt pl (B2R eps) (exact_vec a) /\ clear_of alt pl (B2R eps) (exact_vec b) /\ clear_of alt pl (B2R eps) (exact_vec c)).
(** Whether a corner is in front *)
Definition in_front_of (alt : bool) (p : plane) (x : vec3) : bool := if Rlt_dec 0 (side alt p x) then true else false.
