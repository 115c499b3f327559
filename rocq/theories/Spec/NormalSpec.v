(** The smooth surfaces the mesh generators sample, as functions of the texture coordinates, and what it means that a vector is perpendicular to one. *)
From Coq Require Import Reals List.
From Verif Require Import Model.Vec Model.Aabb Model.Interp Model.Bezier Model.MeshGen Spec.WindingSpec Spec.ChartSpec.
Import ListNotations.
Local Open Scope R_scope.

(** [T] is the velocity of the motion [c] at time 0. *)
Definition velocity (c : R -> vec3) (T : vec3) : Prop :=
  derivable_pt_lim (fun t => vx (c t)) 0 (vx T) /\ derivable_pt_lim (fun t => vy (c t)) 0 (vy T) /\ derivable_pt_lim (fun t => vz (c t)) 0 (vz T).
(** Whatever way one moves on the surface through its point (x, y), the velocity is perpendicular to [n]. *)
Definition perpendicular (n : vec3) (P : R -> R -> vec3) (x y : R) : Prop :=
  forall a b T, velocity (fun t => P (x + a * t) (y + b * t)) T -> dot n T = 0.

(** The vertex is the point of the surface at its texture coordinates, and its normal is perpendicular to the surface there. *)
Definition lies_on (P : R -> R -> vec3) (v : vertex) : Prop := P (x2 (tex_coord v)) (y2 (tex_coord v)) = position v.
Definition upright_on (P : R -> R -> vec3) (v : vertex) : Prop := perpendicular (normal v) P (x2 (tex_coord v)) (y2 (tex_coord v)).
Definition shaded_by (P : R -> R -> vec3) (v : vertex) : Prop := lies_on P v /\ upright_on P v.

Definition mantle_part (rx rz h : R) (x y : R) : vec3 := around rx rz h (2 * PI * (1 - x)) 1 y.
Definition top_part (rx rz h : R) (x y : R) : vec3 := V3 (2 * rx * (x - 1 / 2)) (h / 2) (- (2 * rz * (y - 1 / 2))).
Definition bottom_part (rx rz h : R) (x y : R) : vec3 := V3 (2 * rx * (x - 1 / 2)) (- (h / 2)) (2 * rz * (y - 1 / 2)).
Definition cone_part (rx rz h : R) (x y : R) : vec3 := around rx rz h (2 * PI * (1 - x)) y y.
Definition spiral_part (d : spiral) (x y : R) : vec3 :=
  ring_point (sp_ring d) (sp_tube d) (- (2 * PI * x)) (2 * PI * y) ((- x - Rmax 0 (sp_turns d) / 2) * sp_displacement d).
(** The cross section of the tube of a spiral at the angle [a] *)
Definition section_part (d : spiral) (a flip : R) (x y : R) : vec3 :=
  let u := 2 * (x - 1 / 2) in let w := flip * (2 * (y - 1 / 2)) in
  V3 (sin a * (x2 (sp_ring d) + u * vx (sp_tube d))) (w * vy (sp_tube d) + (a / (2 * PI) - Rmax 0 (sp_turns d) / 2) * sp_displacement d)
     (cos a * (y2 (sp_ring d) + u * vz (sp_tube d))).
(** The point on the center line of a spiral, and of its bottom, at angle [a] *)
Definition center_line (d : spiral) (a : R) : vec3 :=
  V3 (sin a * x2 (sp_ring d)) ((a / (2 * PI) - Rmax 0 (sp_turns d) / 2) * sp_displacement d) (cos a * y2 (sp_ring d)).

(** The smooth pieces a surface consists of *)
Definition parts (d : descriptor) : list (R -> R -> vec3) :=
  match d with
  | DCuboid d => let s := cu_size d in
    [ (fun x y => V3 (vx s * (x - 1 / 2)) (vy s * (1 / 2 - y)) (- (vz s / 2)));
      (fun x y => V3 (- (vx s * (x - 1 / 2))) (vy s * (1 / 2 - y)) (vz s / 2));
      (fun x y => V3 (vx s / 2) (vy s * (1 / 2 - y)) (vz s * (x - 1 / 2)));
      (fun x y => V3 (- (vx s / 2)) (vy s * (1 / 2 - y)) (- (vz s * (x - 1 / 2))));
      (fun x y => V3 (vx s * (x - 1 / 2)) (vy s / 2) (vz s * (1 / 2 - y)));
      (fun x y => V3 (vx s * (x - 1 / 2)) (- (vy s / 2)) (- (vz s * (1 / 2 - y)))) ]
  | DEllipsoid d => let r := el_radius d in
    [ (fun x y => V3 (vx r * (sin (PI * y) * cos (2 * PI * x))) (vy r * cos (PI * y)) (vz r * (sin (PI * y) * sin (2 * PI * x)))) ]
  | DCone d => let r := co_radius d in [ cone_part (x2 r) (y2 r) (co_height d); bottom_part (x2 r) (y2 r) (co_height d) ]
  | DCylinder d => let r := cy_radius d in let h := cy_height d in
    [ mantle_part (x2 r) (y2 r) h; bottom_part (x2 r) (y2 r) h; top_part (x2 r) (y2 r) h ]
  | DPipe d => let ri := pp_inner d in let ro := pp_outer d in let h := pp_height d in
    [ mantle_part (x2 ro) (y2 ro) h; mantle_part (x2 ri) (y2 ri) h; bottom_part (x2 ro) (y2 ro) h; top_part (x2 ro) (y2 ro) h ]
  | DPie d => let r := pi_radius d in let h := pi_height d in
    let angle := clampR (pi_angle d) 0 (2 * PI) in let first := pi_offset d + angle in let last := pi_offset d in
    [ (fun x y => around (x2 r) (y2 r) h (first + (2 * PI - angle) * (1 - x)) 1 y);
      (fun x y => around (x2 r) (y2 r) h first (1 - x) y);
      (fun x y => around (x2 r) (y2 r) h last x y);
      bottom_part (x2 r) (y2 r) h; top_part (x2 r) (y2 r) h ]
  | DCapsule d => let r := ca_radius d in let h := ca_height d in
    [ mantle_part (vx r) (vz r) h;
      (fun x y => V3 (- (vx r * (sin (PI / 2 * y) * sin (2 * PI * x)))) (vy r * cos (PI / 2 * y) + h / 2) (vz r * (sin (PI / 2 * y) * cos (2 * PI * x))));
      (fun x y => V3 (vx r * (sin (PI / 2 * y) * sin (2 * PI * x))) (- (vy r * cos (PI / 2 * y) + h / 2)) (vz r * (sin (PI / 2 * y) * cos (2 * PI * x)))) ]
  | DTorus d => [ (fun x y => ring_point (to_ring d) (to_tube d) (- (2 * PI * x)) (2 * PI * y) 0) ]
  | DKnot _ | DSpiral _ | DCurve _ | DBezier _ => []
  end.

(** Cross sections are circles, or the descriptor is a torus whose ring and tube have the same proportions. *)
Definition circular (d : descriptor) : Prop :=
  match d with
  | DCuboid _ => True
  | DEllipsoid d => exists r, el_radius d = V3 r r r
  | DCylinder d => exists r, r <> 0 /\ cy_radius d = V2 r r
  | DPipe d => exists r R, 0 < r /\ 0 < R /\ pp_inner d = V2 r r /\ pp_outer d = V2 R R
  | DPie d => exists r, pi_radius d = V2 r r
  | DCapsule d => exists r, ca_radius d = V3 r r r
  | DTorus d => vx (to_tube d) <> 0 /\ vy (to_tube d) <> 0 /\ vz (to_tube d) <> 0 /\ x2 (to_ring d) * vz (to_tube d) = y2 (to_ring d) * vx (to_tube d)
  | DCone _ | DKnot _ | DSpiral _ | DCurve _ | DBezier _ => False
  end.

(** The part of a Bezier patch a mesh shows: seen from the front the image is turned around, from the back it is not. *)
Definition bezier_at (d : bezier_desc) (x y : R) : option vec3 := patch_eval (bp_patch d) x (if bp_back d then y else 1 - y).
(** [n] is perpendicular to [a] and [b] and of length one; a, b, n are right-handed if [s] is positive. *)
Definition unit_normal (s : R) (a b n : vec3) : Prop := dot n a = 0 /\ dot n b = 0 /\ len n = 1 /\ 0 < s * dot n (cross a b).
