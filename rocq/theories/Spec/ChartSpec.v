(** Where a point of the image lies on the surface: the texture coordinates (x, y) of a vertex as parameters of its position. *)
From Coq Require Import Reals.
From Verif Require Import Model.Vec Model.Aabb Model.Interp Model.Bezier Model.MeshGen Spec.WindingSpec.
Local Open Scope R_scope.

(** A point at angle [a] and fraction [k] of the radii of a vertical elliptic cylinder, at fraction [y] from the top *)
Definition around (rx rz h a k y : R) : vec3 := V3 (k * (rx * sin a)) (h * (1 / 2 - y)) (k * (rz * cos a)).
(** A cover shows the image from above or from below, the ellipse of radii [rx], [rz] being the largest one in the image. *)
Definition top_cover (rx rz h : R) (v : vertex) : Prop :=
  let x := x2 (tex_coord v) in let y := y2 (tex_coord v) in
  normal v = V3 0 1 0 /\ position v = V3 (2 * rx * (x - 1 / 2)) (h / 2) (- (2 * rz * (y - 1 / 2))).
Definition bottom_cover (rx rz h : R) (v : vertex) : Prop :=
  let x := x2 (tex_coord v) in let y := y2 (tex_coord v) in
  normal v = V3 0 (-1) 0 /\ position v = V3 (2 * rx * (x - 1 / 2)) (- (h / 2)) (2 * rz * (y - 1 / 2)).

Definition cuboid_chart (s : vec3) (v : vertex) : Prop :=
  let x := x2 (tex_coord v) - 1 / 2 in let y := 1 / 2 - y2 (tex_coord v) in
  (normal v = V3 0 0 (-1) /\ position v = V3 (vx s * x) (vy s * y) (- (vz s / 2))) \/
  (normal v = V3 0 0 1 /\ position v = V3 (- (vx s * x)) (vy s * y) (vz s / 2)) \/
  (normal v = V3 1 0 0 /\ position v = V3 (vx s / 2) (vy s * y) (vz s * x)) \/
  (normal v = V3 (-1) 0 0 /\ position v = V3 (- (vx s / 2)) (vy s * y) (- (vz s * x))) \/
  (normal v = V3 0 1 0 /\ position v = V3 (vx s * x) (vy s / 2) (vz s * y)) \/
  (normal v = V3 0 (-1) 0 /\ position v = V3 (vx s * x) (- (vy s / 2)) (- (vz s * y))).

Definition ring_point (ring : vec2) (tube : vec3) (a b up : R) : vec3 :=
  V3 (sin a * (x2 ring + sin b * vx tube)) (cos b * vy tube + up) (cos a * (y2 ring + sin b * vz tube)).

Definition charted (d : descriptor) (v : vertex) : Prop :=
  let x := x2 (tex_coord v) in let y := y2 (tex_coord v) in
  let turn := 2 * PI * (1 - x) in
  match d with
  | DCuboid d => cuboid_chart (cu_size d) v
  | DEllipsoid d =>
    let r := el_radius d in
    position v = V3 (vx r * (sin (PI * y) * cos (2 * PI * x))) (vy r * cos (PI * y)) (vz r * (sin (PI * y) * sin (2 * PI * x)))
  | DCone d =>
    let rx := x2 (co_radius d) in let rz := y2 (co_radius d) in
    position v = around rx rz (co_height d) turn y y \/ bottom_cover rx rz (co_height d) v
  | DCylinder d =>
    let rx := x2 (cy_radius d) in let rz := y2 (cy_radius d) in
    (normal v = V3 (sin turn) 0 (cos turn) /\ position v = around rx rz (cy_height d) turn 1 y) \/
    bottom_cover rx rz (cy_height d) v \/ top_cover rx rz (cy_height d) v
  | DPipe d =>
    let ro := pp_outer d in let ri := pp_inner d in
    (normal v = V3 (sin turn) 0 (cos turn) /\ position v = around (x2 ro) (y2 ro) (pp_height d) turn 1 y) \/
    (normal v = V3 (- sin turn) 0 (- cos turn) /\ position v = around (x2 ri) (y2 ri) (pp_height d) turn 1 y) \/
    bottom_cover (x2 ro) (y2 ro) (pp_height d) v \/ top_cover (x2 ro) (y2 ro) (pp_height d) v
  | DPie d =>
    let rx := x2 (pi_radius d) in let rz := y2 (pi_radius d) in let h := pi_height d in
    let angle := clampR (pi_angle d) 0 (2 * PI) in let first := pi_offset d + angle in let last := pi_offset d in
    let a := first + (2 * PI - angle) * (1 - x) in
    (normal v = V3 (sin a) 0 (cos a) /\ position v = around rx rz h a 1 y) \/
    (normal v = V3 (- cos first) 0 (sin first) /\ position v = around rx rz h first (1 - x) y) \/
    (normal v = V3 (cos last) 0 (- sin last) /\ position v = around rx rz h last x y) \/
    bottom_cover rx rz h v \/ top_cover rx rz h v
  | DCapsule d =>
    let r := ca_radius d in let h := ca_height d in
    (normal v = V3 (sin turn) 0 (cos turn) /\ position v = around (vx r) (vz r) h turn 1 y) \/
    position v = V3 (- (vx r * (sin (PI / 2 * y) * sin (2 * PI * x)))) (vy r * cos (PI / 2 * y) + h / 2) (vz r * (sin (PI / 2 * y) * cos (2 * PI * x))) \/
    position v = V3 (vx r * (sin (PI / 2 * y) * sin (2 * PI * x))) (- (vy r * cos (PI / 2 * y) + h / 2)) (vz r * (sin (PI / 2 * y) * cos (2 * PI * x)))
  | DTorus d => position v = ring_point (to_ring d) (to_tube d) (- (2 * PI * x)) (2 * PI * y) 0
  | DSpiral d =>
    let n := Rmax 0 (sp_turns d) in
    (* the covers are cross sections at the first and at the last turn *)
    let cover a flip :=
      let u := 2 * (x - 1 / 2) in let w := flip * (2 * (y - 1 / 2)) in
      V3 (sin a * (x2 (sp_ring d) + u * vx (sp_tube d))) (w * vy (sp_tube d) + (a / (2 * PI) - n / 2) * sp_displacement d) (cos a * (y2 (sp_ring d) + u * vz (sp_tube d))) in
    position v = ring_point (sp_ring d) (sp_tube d) (- (2 * PI * x)) (2 * PI * y) ((- x - n / 2) * sp_displacement d) \/
    (normal v = V3 (-1) 0 0 /\ position v = cover 0 1) \/
    (normal v = V3 (cos (2 * PI * n)) 0 (sin (2 * PI * n)) /\ position v = cover (2 * PI * n) (-1))
  | DCurve d =>
    exists f, cv_curve d = Some f /\
      position v = vadd (f x) (vscale (cv_radius d * match cv_modifier d with None => 1 | Some g => g x y end) (normal v))
  | DKnot d => position v = vadd (knot_curve d x) (vscale (kn_tube d * match kn_modifier d with None => 1 | Some g => g x y end) (normal v))
  | DBezier d => patch_eval (bp_patch d) x (if bp_back d then y else 1 - y) = Some (position v)
  end.
