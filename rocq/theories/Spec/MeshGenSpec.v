(** What a generated mesh should be, without indices: grids, discs and tubes of labelled points. *)
From Coq Require Import ZArith Reals List Bool Arith.
From Verif Require Import Model.Scalar Model.Vec Model.Aabb Model.Mesh Model.Interp Model.Bezier Model.Transforms Model.MeshGen.
Import ListNotations.

(** The three directed edges of a triangle, and of all triangles of a list *)
Definition tri_edges {A} (t : A * A * A) : list (A * A) := let '(a, b, c) := t in [(a, b); (b, c); (c, a)].
Definition directed_edges {A} (l : list (A * A * A)) : list (A * A) := flat_map tri_edges l.
Definition tmap {A B} (f : A -> B) (t : A * A * A) : B * B * B := let '(a, b, c) := t in (f a, f b, f c).

(** A quadrilateral a b c d cut along a-c or along b-d *)
Definition cut {A} (ac : bool) (a b c d : A) : list (A * A * A) :=
  if ac then [(a, b, c); (a, c, d)] else [(a, b, d); (b, c, d)].

(** The first corner of a grid cell and its orientation.  Cell (i, j) has the corners (i, j), (i+1, j), (i+1, j+1), (i, j+1). *)
Inductive order := O0 | O1 | O2 | O3.
Definition cell (o : order) (ac : nat -> nat -> bool) (i j : nat) : list ((nat * nat) * (nat * nat) * (nat * nat)) :=
  match o with
  | O0 => cut (ac i j) (i, j) (i + 1, j) (i + 1, j + 1) (i, j + 1)
  | O1 => cut (ac i j) (i + 1, j) (i, j) (i, j + 1) (i + 1, j + 1)
  | O2 => cut (ac i j) (i, j) (i, j + 1) (i + 1, j + 1) (i + 1, j)
  | O3 => cut (ac i j) (i, j + 1) (i, j) (i + 1, j) (i + 1, j + 1)
  end.

(** A grid of R by C cells over the points (0..R, 0..C) *)
Definition grid (o : order) (ac : nat -> nat -> bool) (R C : nat) :=
  flat_map (fun i => flat_map (fun j => cell o ac i j) (seq 0 C)) (seq 0 R).
(** A disc: the center is (0, 0); around it H sectors with the points (0..H, 1..K) *)
Definition disc (up : bool) (ac : nat -> nat -> bool) (H K : nat) :=
  flat_map (fun i =>
    (if up then ((0, 0), (i, 1), (i + 1, 1)) else ((i + 1, 1), (i, 1), (0, 0)))
    :: flat_map (fun j => cell (if up then O1 else O0) ac i j) (seq 1 (K - 1))) (seq 0 H).
(** A cone: every sector i has its own tip (i, 0) *)
Definition cone_fan (ac : nat -> nat -> bool) (H V : nat) :=
  flat_map (fun i => ((i, 0), (i, 1), (i + 1, 1)) :: flat_map (fun j => cell O1 ac i j) (seq 1 (V - 1))) (seq 0 H).
(** A grid that is closed in both directions *)
Definition next (n i : nat) : nat := if (i + 1 <? n)%nat then (i + 1)%nat else 0%nat.
Definition tube (ac : nat -> nat -> bool) (U V : nat) :=
  flat_map (fun i => flat_map (fun j => cut (ac i j) (i, j) (i, next V j) (next U i, next V j) (next U i, j)) (seq 0 V)) (seq 0 U).

(** The diagonal of the cell (u, v) *)
Definition diagonal (alt : bool) (u v : nat) : bool := negb alt || (u mod 2 =? v mod 2).

(** ** Number of vertices and triangles *)
Local Open Scope nat_scope.
Definition grid_vertices (R C : nat) : nat := (R + 1) * (C + 1).
Definition grid_triangles (R C : nat) : nat := 2 * R * C.
(** A cover with K rings: nothing for K = 0 *)
Definition disc_vertices_no (H K : nat) : nat := if K =? 0 then 0 else 1 + (H + 1) * K.
Definition disc_triangles_no (H K : nat) : nat := if K =? 0 then 0 else H * (2 * K - 1).
Definition ring_vertices_no (H K : nat) : nat := if K =? 0 then 0 else grid_vertices H K.
Definition ring_triangles_no (H K : nat) : nat := if K =? 0 then 0 else grid_triangles H K.

(** The number of grid columns of a spiral *)
Definition spiral_segments (d : spiral) : nat := Z.to_nat (Int_part (Rmax 0 (sp_turns d) * INR (Nat.max 3 (sp_u d)))).

Definition vertex_count (d : descriptor) : nat :=
  match d with
  | DCuboid d =>
    let X := Nat.max 1 (cu_x d) in let Y := Nat.max 1 (cu_y d) in let Z := Nat.max 1 (cu_z d) in
    2 * (grid_vertices X Y + grid_vertices Y Z + grid_vertices Z X)
  | DEllipsoid d => grid_vertices (Nat.max 2 (el_v d)) (Nat.max 3 (el_u d))
  | DCone d => let H := Nat.max 3 (co_u d) in let V := Nat.max 1 (co_v d) in (H + 1) * V + H + disc_vertices_no H (co_cover d)
  | DCylinder d =>
    let H := Nat.max 3 (cy_u d) in grid_vertices H (Nat.max 1 (cy_v d)) + disc_vertices_no H (cy_bottom d) + disc_vertices_no H (cy_top d)
  | DPie d =>
    let H := Nat.max 3 (pi_u d) in let V := Nat.max 1 (pi_v d) in
    grid_vertices H V + 2 * grid_vertices (Nat.max 1 (pi_cover d)) V + 2 * disc_vertices_no H (pi_cover d)
  | DPipe d =>
    let H := Nat.max 3 (pp_u d) in
    2 * grid_vertices H (Nat.max 1 (pp_v d)) + ring_vertices_no H (pp_bottom d) + ring_vertices_no H (pp_top d)
  | DCapsule d => let H := Nat.max 3 (ca_u d) in grid_vertices H (Nat.max 1 (ca_v d)) + 2 * grid_vertices (Nat.max 2 (ca_cap d)) H
  | DTorus d => grid_vertices (Nat.max 3 (to_v d)) (Nat.max 3 (to_u d))
  | DKnot d => Nat.max 3 (kn_u d) * Nat.max 3 (kn_v d)
  | DSpiral d =>
    let V := Nat.max 3 (sp_v d) in grid_vertices V (spiral_segments d) + disc_vertices_no V (sp_bottom d) + disc_vertices_no V (sp_top d)
  | DCurve d => Nat.max 3 (cv_u d) * Nat.max 3 (cv_v d)
  | DBezier d => grid_vertices (Nat.max 1 (bp_v d)) (Nat.max 1 (bp_u d))
  end.

Definition triangle_count (d : descriptor) : nat :=
  match d with
  | DCuboid d =>
    let X := Nat.max 1 (cu_x d) in let Y := Nat.max 1 (cu_y d) in let Z := Nat.max 1 (cu_z d) in
    4 * (X * Y + Y * Z + Z * X)
  | DEllipsoid d => grid_triangles (Nat.max 2 (el_v d)) (Nat.max 3 (el_u d))
  | DCone d => let H := Nat.max 3 (co_u d) in let V := Nat.max 1 (co_v d) in H * (2 * V - 1) + disc_triangles_no H (co_cover d)
  | DCylinder d =>
    let H := Nat.max 3 (cy_u d) in grid_triangles H (Nat.max 1 (cy_v d)) + disc_triangles_no H (cy_bottom d) + disc_triangles_no H (cy_top d)
  | DPie d =>
    let H := Nat.max 3 (pi_u d) in let V := Nat.max 1 (pi_v d) in
    grid_triangles H V + 2 * grid_triangles (Nat.max 1 (pi_cover d)) V + 2 * disc_triangles_no H (pi_cover d)
  | DPipe d =>
    let H := Nat.max 3 (pp_u d) in
    2 * grid_triangles H (Nat.max 1 (pp_v d)) + ring_triangles_no H (pp_bottom d) + ring_triangles_no H (pp_top d)
  | DCapsule d => let H := Nat.max 3 (ca_u d) in grid_triangles H (Nat.max 1 (ca_v d)) + 2 * grid_triangles (Nat.max 2 (ca_cap d)) H
  | DTorus d => grid_triangles (Nat.max 3 (to_v d)) (Nat.max 3 (to_u d))
  | DKnot d => grid_triangles (Nat.max 3 (kn_u d)) (Nat.max 3 (kn_v d))
  | DSpiral d =>
    let V := Nat.max 3 (sp_v d) in grid_triangles V (spiral_segments d) + disc_triangles_no V (sp_bottom d) + disc_triangles_no V (sp_top d)
  | DCurve d => grid_triangles (Nat.max 3 (cv_u d)) (Nat.max 3 (cv_v d))
  | DBezier d => grid_triangles (Nat.max 1 (bp_v d)) (Nat.max 1 (bp_u d))
  end.

(** The segment counts of a descriptor, which are 32-bit numbers *)
Definition segment_counts (d : descriptor) : list nat :=
  match d with
  | DCuboid d => [cu_x d; cu_y d; cu_z d] | DEllipsoid d => [el_u d; el_v d] | DCone d => [co_u d; co_v d; co_cover d]
  | DCylinder d => [cy_u d; cy_v d; cy_top d; cy_bottom d] | DPie d => [pi_u d; pi_v d; pi_cover d]
  | DPipe d => [pp_u d; pp_v d; pp_top d; pp_bottom d] | DCapsule d => [ca_u d; ca_v d; ca_cap d] | DTorus d => [to_u d; to_v d]
  | DKnot d => [kn_u d; kn_v d; kn_loops d; kn_turns d] | DSpiral d => [sp_u d; sp_v d; sp_top d; sp_bottom d]
  | DCurve d => [cv_u d; cv_v d] | DBezier d => [bp_u d; bp_v d]
  end.
Definition valid (d : descriptor) : Prop := forall n, In n (segment_counts d) -> (Z.of_nat n < 2 ^ 32)%Z.

(** The operations of the descriptor itself are defined: there is a curve, the patch has a point at all parameters that are sampled, the
    number of segments of a spiral fits 32 bits. *)
Definition defined (d : descriptor) : Prop :=
  match d with
  | DSpiral d => (Rmax 0 (sp_turns d) * INR (Nat.max 3 (sp_u d)) < IZR (2 ^ 32))%R
  | DCurve d => cv_curve d <> None
  | DBezier d =>
    let H := Nat.max 1 (bp_u d) in let V := Nat.max 1 (bp_v d) in
    forall i j, i <= V -> j <= H -> bezier_vertex d H V i j <> None
  | _ => True
  end.

(** No loop of the generator has the bound 2^32 - 1. *)
Definition small (n : nat) : Prop := Z.of_nat n <> (2 ^ 32 - 1)%Z.
Definition ends (d : descriptor) : Prop :=
  match d with
  | DKnot _ | DCurve _ => True
  | DSpiral d => small (sp_v d) /\ small (spiral_segments d) /\ small (sp_top d) /\ small (sp_bottom d)
  | _ => forall n, In n (segment_counts d) -> small n
  end.

(** Two lists of triangles that differ only in the choice of the diagonals of quadrilaterals *)
Inductive same_but_diagonals : list tri -> list tri -> Prop :=
| sbd_nil : same_but_diagonals [] []
| sbd_same t l l' : same_but_diagonals l l' -> same_but_diagonals (t :: l) (t :: l')
| sbd_flip a b c d l l' : same_but_diagonals l l' -> same_but_diagonals ((a, b, c) :: (a, c, d) :: l) ((a, b, d) :: (b, c, d) :: l')
| sbd_flip' a b c d l l' : same_but_diagonals l l' -> same_but_diagonals ((a, b, d) :: (b, c, d) :: l) ((a, b, c) :: (a, c, d) :: l').

(** The descriptor with another value of alternateGrid *)
Definition set_alternate (b : bool) (d : descriptor) : descriptor :=
  match d with
  | DCuboid d => DCuboid (mkCuboid (cu_size d) (cu_x d) (cu_y d) (cu_z d) b)
  | DEllipsoid d => DEllipsoid (mkEllipsoid (el_radius d) (el_u d) (el_v d) b)
  | DCone d => DCone (mkConeD (co_radius d) (co_height d) (co_u d) (co_v d) (co_cover d) b)
  | DCylinder d => DCylinder (mkCylinder (cy_radius d) (cy_height d) (cy_u d) (cy_v d) (cy_top d) (cy_bottom d) b)
  | DPie d => DPie (mkPie (pi_radius d) (pi_height d) (pi_u d) (pi_v d) (pi_cover d) (pi_angle d) (pi_offset d) b)
  | DPipe d => DPipe (mkPipe (pp_inner d) (pp_outer d) (pp_height d) (pp_u d) (pp_v d) (pp_top d) (pp_bottom d) b)
  | DCapsule d => DCapsule (mkCapsule (ca_radius d) (ca_height d) (ca_u d) (ca_v d) (ca_cap d) b)
  | DTorus d => DTorus (mkTorus (to_ring d) (to_tube d) (to_u d) (to_v d) b)
  | DKnot d => DKnot (mkKnot (kn_ring d) (kn_tube d) (kn_inner d) (kn_loops d) (kn_turns d) (kn_u d) (kn_v d) b (kn_modifier d))
  | DSpiral d => DSpiral (mkSpiral (sp_ring d) (sp_tube d) (sp_displacement d) (sp_turns d) (sp_u d) (sp_v d) (sp_top d) (sp_bottom d) b)
  | DCurve d => DCurve (mkCurve (cv_curve d) (cv_radius d) (cv_u d) (cv_v d) b (cv_modifier d))
  | DBezier d => DBezier (mkBezier (bp_patch d) (bp_u d) (bp_v d) b (bp_back d))
  end.

(** ** The surface of a descriptor, without any index: patches of labelled points, each with its triangles *)
Record mesh_patch := mkPatch { p_tris : list ((nat * nat) * (nat * nat) * (nat * nat)); p_at : nat * nat -> vertex }.
Definition at_angle (start step : R) (u : nat) : R := (start + INR u * step)%R.
Definition when {A} (b : bool) (p : A) : list A := if b then [p] else [].

Definition mantle_patch (alt rev : bool) (start step rx rz half side : R) (H V : nat) : mesh_patch :=
  mkPatch (grid (if rev then O0 else O1) (diagonal alt) H V)
          (fun l => mantle_vertex rx rz half side H V (at_angle start step (fst l)) (fst l) (snd l)).
Definition disc_patch (alt up : bool) (start step rx rz y side : R) (H K : nat) : mesh_patch :=
  mkPatch (disc up (diagonal alt) H K)
          (fun l => if snd l =? 0 then disc_center y side else disc_vertex rx rz y side up K (at_angle start step (fst l)) (snd l)).
Definition ring_patch (d : pipe) (up : bool) (step y side : R) (H K : nat) : mesh_patch :=
  mkPatch (grid (if up then O1 else O0) (diagonal (pp_alt d)) H K) (fun l => ring_vertex d y side up K (at_angle 0 step (fst l)) (snd l)).
Definition wall_patch (alt rev : bool) (rx rz half side noff tc0 tc1 : R) (M V : nat) : mesh_patch :=
  mkPatch (grid (if rev then O0 else O1) (diagonal alt) M V) (fun l => wall_vertex rx rz half side (side + noff) tc0 tc1 M V (fst l) (snd l)).
Definition face_patch (alt : bool) (rot : quat) (sh sv soz : R) (H V : nat) : mesh_patch :=
  mkPatch (grid O0 (diagonal alt) V H) (fun l => face_vertex rot sh sv (soz / 2) H V (fst l) (snd l)).
Definition spiral_patch (d : spiral) (up : bool) (turns phi side : R) (V K : nat) : mesh_patch :=
  mkPatch (disc up (diagonal (sp_alt d)) V K)
          (fun l => if snd l =? 0 then spiral_center d turns phi side
                    else spiral_cover_vertex d turns phi side up K (at_angle 0 (1 / INR V * pi_2) (fst l)) (snd l)).
Definition tube_patch (d : curve_desc) (f : R -> vec3) : mesh_patch :=
  let U := Nat.max 3 (cv_u d) in let V := Nat.max 3 (cv_v d) in
  mkPatch (tube (diagonal (cv_alt d)) U V) (fun l => curve_vertex d f U V (fst l) (snd l)).
Definition knot_as_curve (d : knot) : curve_desc := mkCurve (Some (knot_curve d)) (kn_tube d) (kn_u d) (kn_v d) (kn_alt d) (kn_modifier d).
Definition no_vertex : vertex := mkVertex vzero vzero (V2 0 0).

Definition patches (d : descriptor) : list mesh_patch :=
  match d with
  | DCuboid d =>
    let X := Nat.max 1 (cu_x d) in let Y := Nat.max 1 (cu_y d) in let Z := Nat.max 1 (cu_z d) in
    let sx := vx (cu_size d) in let sy := vy (cu_size d) in let sz := vz (cu_size d) in
    let face := face_patch (cu_alt d) in
    [face qone sx sy (- sz)%R X Y; face (euler_y PI) sx sy (- sz)%R X Y;
     face (euler_y (- pi_0_5)) sz sy (- sx)%R Z Y; face (euler_y pi_0_5) sz sy (- sx)%R Z Y;
     face (euler_x pi_0_5) sx sz (- sy)%R X Z; face (euler_x (- pi_0_5)) sx sz (- sy)%R X Z]
  | DEllipsoid d =>
    let U := Nat.max 3 (el_u d) in let V := Nat.max 2 (el_v d) in
    [mkPatch (grid O2 (diagonal (el_alt d)) V U) (fun l => ellipsoid_vertex d U V (fst l) (snd l))]
  | DTorus d =>
    let U := Nat.max 3 (to_u d) in let V := Nat.max 3 (to_v d) in
    [mkPatch (grid O3 (diagonal (to_alt d)) V U) (fun l => torus_vertex d U V (fst l) (snd l))]
  | DCone d =>
    let H := Nat.max 3 (co_u d) in let V := Nat.max 1 (co_v d) in let K := co_cover d in
    let step := (1 / INR H * pi_2)%R in let half := (co_height d * (1 / 2))%R in
    mkPatch (cone_fan (diagonal (co_alt d)) H V)
            (fun l => if snd l =? 0 then cone_tip half H (fst l) else cone_vertex d half H V (at_angle 0 step (fst l)) (fst l) (snd l))
    :: when (0 <? K) (disc_patch (co_alt d) false 0 step (x2 (co_radius d)) (y2 (co_radius d)) (- half) (-1) H K)
  | DCylinder d =>
    let H := Nat.max 3 (cy_u d) in let V := Nat.max 1 (cy_v d) in
    let step := (1 / INR H * pi_2)%R in let half := (cy_height d * (1 / 2))%R in
    let rx := x2 (cy_radius d) in let rz := y2 (cy_radius d) in
    mantle_patch (cy_alt d) false 0 step rx rz half 1 H V
    :: when (0 <? cy_bottom d) (disc_patch (cy_alt d) false 0 step rx rz (half * -1) (-1) H (cy_bottom d))
    ++ when (0 <? cy_top d) (disc_patch (cy_alt d) true 0 step rx rz (half * 1) 1 H (cy_top d))
  | DPipe d =>
    let H := Nat.max 3 (pp_u d) in let V := Nat.max 1 (pp_v d) in
    let step := (1 / INR H * pi_2)%R in let half := (pp_height d * (1 / 2))%R in
    mantle_patch (pp_alt d) false 0 step (x2 (pp_outer d)) (y2 (pp_outer d)) half 1 H V
    :: mantle_patch (pp_alt d) true 0 step (x2 (pp_inner d)) (y2 (pp_inner d)) half (-1) H V
    :: when (0 <? pp_bottom d) (ring_patch d false step (half * -1) (-1) H (pp_bottom d))
    ++ when (0 <? pp_top d) (ring_patch d true step (half * 1) 1 H (pp_top d))
  | DPie d =>
    let H := Nat.max 3 (pi_u d) in let V := Nat.max 1 (pi_v d) in let K := pi_cover d in let M := Nat.max 1 K in
    let angle := clampR (pi_angle d) 0 pi_2 in let start := (pi_offset d + angle)%R in
    let step := (1 / INR H * (pi_2 - angle))%R in let half := (pi_height d * (1 / 2))%R in
    let rx := x2 (pi_radius d) in let rz := y2 (pi_radius d) in
    mantle_patch (pi_alt d) false start step rx rz half 1 H V
    :: wall_patch (pi_alt d) false rx rz half start (PI + pi_0_5) 1 (-1) M V
    :: wall_patch (pi_alt d) true rx rz half (start - angle) pi_0_5 0 1 M V
    :: when (0 <? K) (disc_patch (pi_alt d) false start step rx rz (half * -1) (-1) H K)
    ++ when (0 <? K) (disc_patch (pi_alt d) true start step rx rz (half * 1) 1 H K)
  | DCapsule d =>
    let H := Nat.max 3 (ca_u d) in let V := Nat.max 1 (ca_v d) in let C := Nat.max 2 (ca_cap d) in
    let step := (1 / INR H * pi_2)%R in let half := (ca_height d * (1 / 2))%R in
    let cap side := mkPatch (grid O2 (diagonal (ca_alt d)) C H) (fun l => cap_vertex d half side H C (fst l) (snd l)) in
    [mantle_patch (ca_alt d) false 0 step (vx (ca_radius d)) (vz (ca_radius d)) half 1 H V; cap 1%R; cap (-1)%R]
  | DSpiral d =>
    let turns := Rmax 0 (sp_turns d) in let U := Nat.max 3 (sp_u d) in let V := Nat.max 3 (sp_v d) in let T := spiral_segments d in
    mkPatch (grid O3 (diagonal (sp_alt d)) V T) (fun l => spiral_vertex d turns U V (fst l) (snd l))
    :: when (0 <? sp_bottom d) (spiral_patch d false turns 0 (-1) V (sp_bottom d))
    ++ when (0 <? sp_top d) (spiral_patch d true turns (turns * pi_2) 1 V (sp_top d))
  | DKnot d => [tube_patch (knot_as_curve d) (knot_curve d)]
  | DCurve d => match cv_curve d with None => [] | Some f => [tube_patch d f] end
  | DBezier d =>
    let H := Nat.max 1 (bp_u d) in let V := Nat.max 1 (bp_v d) in
    [mkPatch (grid (if bp_back d then O1 else O0) (diagonal (bp_alt d)) V H)
             (fun l => match bezier_vertex d H V (fst l) (snd l) with Some v => v | None => no_vertex end)]
  end.
(** All triangles of the surface, given by the vertices at their corners *)
Definition surface (d : descriptor) : list (vertex * vertex * vertex) := flat_map (fun p => map (tmap (p_at p)) (p_tris p)) (patches d).

(** The corners of a triangle in a mesh *)
Definition corners (m : gmesh) (t : tri) : option (vertex * vertex * vertex) :=
  let '(a, b, c) := t in
  match nth_error (verts m) a, nth_error (verts m) b, nth_error (verts m) c with Some u, Some v, Some w => Some (u, v, w) | _, _, _ => None end.
(** What has been appended to a mesh *)
Definition new_vertices (m m' : gmesh) : list vertex := skipn (length (verts m)) (verts m').
Definition new_triangles (m m' : gmesh) : list tri := skipn (length (tris m)) (tris m').
(** Every directed edge has its opposite. *)
Definition watertight {A} (l : list (A * A * A)) : Prop := forall a b, In (a, b) (directed_edges l) -> In (b, a) (directed_edges l).
