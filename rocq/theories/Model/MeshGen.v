(** Mesh generators: include/Geom/MeshGenerator.h, sources/MeshGenerator*.cpp.

    Scalars are exact reals.  Segment counts are std::uint32_t: natural numbers below 2^32, and every expression the code
    computes in 32 bits goes through [u32]; a sum of products is reduced once, which is the same number.  VertexIndex is
    std::size_t: offsets into the mesh do not wrap.  Local variables that are always assigned before they are read are
    [let]s; running angles are part of the loop state. *)
From Coq Require Import ZArith Reals List Bool Arith.
From Verif Require Import Model.Scalar Model.Vec Model.Aabb Model.Mesh Model.Interp Model.Bezier Model.Transforms.
Import ListNotations.
Local Open Scope R_scope.

(** A generator can end, fail the assertion of AddTriangle, run forever (a loop [u <= 0xffffffff]), execute an undefined
    operation (a division of integers by zero, a conversion out of range) or throw (an empty std::function). *)
Inductive outcome (A : Type) := Ok (a : A) | AssertFails | Endless | Undefined | Throws.
Arguments Ok {A}. Arguments AssertFails {A}. Arguments Endless {A}. Arguments Undefined {A}. Arguments Throws {A}.
Definition bind {A B} (o : outcome A) (k : A -> outcome B) : outcome B :=
  match o with Ok a => k a | AssertFails => AssertFails | Endless => Endless | Undefined => Undefined | Throws => Throws end.
Notation "x <- e ;; k" := (bind e (fun x => k)) (at level 61, e at next level, right associativity).

(** Arithmetic of std::uint32_t *)
Definition u32 (n : nat) : nat := Z.to_nat (Z.of_nat n mod 2 ^ 32).
Definition u32_max : Z := 2 ^ 32 - 1.

Fixpoint for_list {A} (l : list nat) (body : nat -> A -> outcome A) (a : A) : outcome A :=
  match l with [] => Ok a | i :: l' => a' <- body i a ;; for_list l' body a' end.
(** for (std::uint32_t i = first; i < n; ++i) *)
Definition for_lt {A} (first n : nat) (body : nat -> A -> outcome A) (a : A) : outcome A := for_list (seq first (n - first)) body a.
(** for (std::uint32_t i = first; i <= n; ++i), which never ends when n is the largest number *)
Definition for_le {A} (first n : nat) (body : nat -> A -> outcome A) (a : A) : outcome A :=
  if (Z.of_nat n =? u32_max)%Z then Endless else for_list (seq first (S n - first)) body a.

Notation gmesh := (mesh vertex).

(** mesh.AddVertex and mesh.AddTriangle, TriangleMesh.cpp 67-80 *)
Definition add_v (m : gmesh) (v : vertex) : gmesh := snd (add_vertex m v).
Definition add_t (m : gmesh) (a b c : nat) : outcome gmesh :=
  match add_triangle m a b c with Some r => Ok (snd r) | None => AssertFails end.

(** ** MeshGeneratorDetails.cpp *)

(** AddTriangulatedQuad, 18-56 *)
Definition add_quad (m : gmesh) (alt : bool) (u v i0 i1 i2 i3 off : nat) : outcome gmesh :=
  if negb alt || (u mod 2 =? v mod 2)
  then m <- add_t m (off + i0) (off + i1) (off + i2) ;; add_t m (off + i0) (off + i2) (off + i3)
  else m <- add_t m (off + i0) (off + i1) (off + i3) ;; add_t m (off + i1) (off + i2) (off + i3).

(** The factor 1/segs times i, as in [static_cast<Gs::Real>(i) * invSegs] *)
Definition frac (i segs : nat) : R := INR i * (1 / INR segs).
(** Gs::Lerp on scalars *)
Definition lerp (a b t : R) : R := a + (b - a) * t.
Definition pi_2 : R := PI * 2.
Definition pi_0_5 : R := PI * (1 / 2).

(** ** MeshGeneratorCuboid.cpp *)

Record cuboid := mkCuboid { cu_size : vec3; cu_x : nat; cu_y : nat; cu_z : nat; cu_alt : bool }.

(** 46-56, the vertex in row [i] and column [j] of a face *)
Definition face_vertex (rot : quat) (sh sv z : R) (H V : nat) (i j : nat) : vertex :=
  let u := frac j H in
  let v := frac i V in
  mkVertex (rotate rot (V3 (sh * u - sh / 2) (sv * v - sv / 2) z)) (rotate rot (V3 0 0 (-1))) (V2 u (1 - v)).

(** 60-75, also MeshGeneratorBezierPatch.cpp 28-34 and 68-83: [rev] swaps the corners as the patch does when back facing. *)
Definition row_quads (m : gmesh) (alt rev : bool) (H V off : nat) : outcome gmesh :=
  let stride := u32 (H + 1) in
  for_lt 0 V (fun v m =>
    for_lt 0 H (fun u m =>
      let i0 := u32 (v * stride + u) in
      let i1 := u32 ((v + 1) * stride + u) in
      let i2 := u32 ((v + 1) * stride + u + 1) in
      let i3 := u32 (v * stride + u + 1) in
      if rev then add_quad m alt u v i1 i0 i3 i2 off else add_quad m alt u v i0 i1 i2 i3 off) m) m.

(** BuildFace, 19-76 *)
Definition build_face (m : gmesh) (rot : quat) (sh sv soz : R) (H V : nat) (alt : bool) : outcome gmesh :=
  let z := soz / 2 in
  let off := length (verts m) in
  m <- for_le 0 V (fun i m => for_le 0 H (fun j m => Ok (add_v m (face_vertex rot sh sv z H V i j))) m) m ;;
  row_quads m alt false H V off.

(** Gs::Quaternion::EulerAngles for a rotation about one axis *)
Definition euler_x (a : R) : quat := Q4 (sin (a / 2)) 0 0 (cos (a / 2)).
Definition euler_y (a : R) : quat := Q4 0 (sin (a / 2)) 0 (cos (a / 2)).

(** GenerateCuboid, 78-120 *)
Definition generate_cuboid (d : cuboid) (m : gmesh) : outcome gmesh :=
  let X := Nat.max 1 (cu_x d) in let Y := Nat.max 1 (cu_y d) in let Z := Nat.max 1 (cu_z d) in
  let sx := vx (cu_size d) in let sy := vy (cu_size d) in let sz := vz (cu_size d) in
  m <- build_face m qone sx sy (- sz) X Y (cu_alt d) ;;
  m <- build_face m (euler_y PI) sx sy (- sz) X Y (cu_alt d) ;;
  m <- build_face m (euler_y (- pi_0_5)) sz sy (- sx) Z Y (cu_alt d) ;;
  m <- build_face m (euler_y pi_0_5) sz sy (- sx) Z Y (cu_alt d) ;;
  m <- build_face m (euler_x pi_0_5) sx sz (- sy) X Z (cu_alt d) ;;
  build_face m (euler_x (- pi_0_5)) sx sz (- sy) X Z (cu_alt d).

(** ** MeshGeneratorEllipsoid.cpp *)

Record ellipsoid := mkEllipsoid { el_radius : vec3; el_u : nat; el_v : nat; el_alt : bool }.

(** Gs::Vector3(Gs::Spherical(1, theta, phi)) with y and z swapped *)
Definition spherical (theta phi : R) : vec3 := V3 (sin theta * cos phi) (cos theta) (sin theta * sin phi).

(** 35-50 *)
Definition ellipsoid_vertex (d : ellipsoid) (U V : nat) (v u : nat) : vertex :=
  let ty := frac v V in
  let tx := frac u U in
  let coord := spherical (ty * PI) (tx * pi_2) in
  mkVertex (vmul coord (el_radius d)) (normalize coord) (V2 tx ty).

(** 54-69, also MeshGeneratorTorus.cpp 67-82 and MeshGeneratorSpiral.cpp 149-164 with [rev], MeshGeneratorCapsule.cpp 131-145 *)
Definition uv_quads (m : gmesh) (alt rev : bool) (U V off : nat) : outcome gmesh :=
  for_lt 0 V (fun v m =>
    for_lt 0 U (fun u m =>
      let i0 := u32 (v * u32 (U + 1) + u) in
      let i1 := u32 (v * u32 (U + 1) + (u + 1)) in
      let i2 := u32 ((v + 1) * u32 (U + 1) + (u + 1)) in
      let i3 := u32 ((v + 1) * u32 (U + 1) + u) in
      if rev then add_quad m alt u v i1 i0 i3 i2 off else add_quad m alt u v i0 i1 i2 i3 off) m) m.

(** GenerateEllipsoid, 19-70 *)
Definition generate_ellipsoid (d : ellipsoid) (m : gmesh) : outcome gmesh :=
  let off := length (verts m) in
  let U := Nat.max 3 (el_u d) in
  let V := Nat.max 2 (el_v d) in
  m <- for_le 0 V (fun v m => for_le 0 U (fun u m => Ok (add_v m (ellipsoid_vertex d U V v u))) m) m ;;
  uv_quads m (el_alt d) false U V off.

(** ** MeshGeneratorTorus.cpp *)

Record torus := mkTorus { to_ring : vec2; to_tube : vec3; to_u : nat; to_v : nat; to_alt : bool }.

(** 34-63 *)
Definition torus_vertex (d : torus) (U V : nat) (v u : nat) : vertex :=
  let ty := frac v V in
  let theta := ty * pi_2 in
  let s0 := sin theta in let c0 := cos theta in
  let tx := frac u U in
  let phi := tx * pi_2 in
  let s1 := sin phi in let c1 := cos phi in
  let coord := V3 (s1 * x2 (to_ring d) + s1 * s0 * vx (to_tube d)) (c0 * vy (to_tube d)) (c1 * y2 (to_ring d) + c1 * s0 * vz (to_tube d)) in
  let normal := V3 (s1 * s0 / vx (to_tube d)) (c0 / vy (to_tube d)) (c1 * s0 / vz (to_tube d)) in
  mkVertex coord (normalize normal) (V2 (- tx) ty).

(** GenerateTorus, 18-83 *)
Definition generate_torus (d : torus) (m : gmesh) : outcome gmesh :=
  let off := length (verts m) in
  let U := Nat.max 3 (to_u d) in
  let V := Nat.max 3 (to_v d) in
  m <- for_le 0 V (fun v m => for_le 0 U (fun u m => Ok (add_v m (torus_vertex d U V v u))) m) m ;;
  uv_quads m (to_alt d) true U V off.

(** ** Mantles and covers, code that is repeated in several generators *)

(** MeshGeneratorCylinder.cpp 41-62, MeshGeneratorCapsule.cpp 44-65, MeshGeneratorPipe.cpp 50-71 with [side] = faceSide,
    MeshGeneratorPie.cpp 46-67.  The vertex of column [u] and row [v]; the product with 1 of the generators without
    faceSide is our addition. *)
Definition mantle_vertex (rx rz half side : R) (H V : nat) (angle : R) (u v : nat) : vertex :=
  let s := sin angle in let c := cos angle in
  let ty := frac v V in
  mkVertex (V3 (s * rx) (lerp half (- half) ty) (c * rz)) (vscale side (normalize (V3 s 0 c))) (V2 (frac (H - u) H) ty).

(** MeshGeneratorCylinder.cpp 36-65, MeshGeneratorCapsule.cpp 40-69, MeshGeneratorPipe.cpp 45-75, MeshGeneratorPie.cpp 42-71 *)
Definition mantle_vertices (m : gmesh) (start step rx rz half side : R) (H V : nat) : outcome gmesh :=
  s <- for_le 0 H (fun u (s : R * gmesh) =>
    let (angle, m) := s in
    m <- for_le 0 V (fun v m => Ok (add_v m (mantle_vertex rx rz half side H V angle u v))) m ;;
    Ok (angle + step, m)) (start, m) ;;
  Ok (snd s).

(** MeshGeneratorCylinder.cpp 120-136, MeshGeneratorCapsule.cpp 110-126, MeshGeneratorPipe.cpp 134-158, MeshGeneratorPie.cpp 166-206;
    [rev]: the inner side (the second mantle). *)
Definition mantle_quads (m : gmesh) (alt rev : bool) (H V off : nat) : outcome gmesh :=
  s <- for_lt 0 H (fun u (s : nat * gmesh) =>
    let (off, m) := s in
    m <- for_lt 0 V (fun v m =>
      let i0 := u32 (v + 1 + V) in
      let i1 := v in
      let i2 := u32 (v + 1) in
      let i3 := u32 (v + 2 + V) in
      if rev then add_quad m alt u v i1 i0 i3 i2 off else add_quad m alt u v i0 i1 i2 i3 off) m ;;
    Ok ((off + u32 (1 + V))%nat, m)) (off, m) ;;
  Ok (snd s).

(** MeshGeneratorCone.cpp 95-112, MeshGeneratorCylinder.cpp 92-113, MeshGeneratorPie.cpp 137-158 *)
Definition disc_vertex (rx rz y side : R) (flip : bool) (K : nat) (angle : R) (v : nat) : vertex :=
  let s := sin angle in let c := cos angle in
  let interp := frac v K in
  let tx := 1 / 2 + s * (1 / 2) * interp in
  let ty := 1 / 2 + c * (1 / 2) * interp in
  mkVertex (lerp3 (V3 0 y 0) (V3 (s * rx) y (c * rz)) interp) (V3 0 side 0) (V2 tx (if flip then 1 - ty else ty)).
Definition disc_center (y side : R) : vertex := mkVertex (V3 0 y 0) (V3 0 side 0) (V2 (1 / 2) (1 / 2)).

(** MeshGeneratorCone.cpp 88-117, MeshGeneratorCylinder.cpp 78-117, MeshGeneratorPie.cpp 124-162: the center and the rings *)
Definition disc_vertices (m : gmesh) (start step rx rz y side : R) (flip : bool) (H K : nat) : outcome gmesh :=
  let m := add_v m (disc_center y side) in
  s <- for_le 0 H (fun _ (s : R * gmesh) =>
    let (angle, m) := s in
    m <- for_le 1 K (fun v m => Ok (add_v m (disc_vertex rx rz y side flip K angle v))) m ;;
    Ok (angle + step, m)) (start, m) ;;
  Ok (snd s).

(** MeshGeneratorCone.cpp 142-160, MeshGeneratorCylinder.cpp 144-167, MeshGeneratorPie.cpp 213-236, MeshGeneratorSpiral.cpp 172-195;
    [rev]: the top cover. *)
Definition disc_quads (m : gmesh) (alt rev : bool) (H K center : nat) : outcome gmesh :=
  s <- for_lt 0 H (fun u (s : nat * gmesh) =>
    let (off, m) := s in
    m <- (if rev then add_t m center off (off + K) else add_t m (off + K) off center) ;;
    m <- for_lt 1 K (fun v m =>
      let i0 := (v - 1)%nat in
      let i1 := u32 (v - 1 + K) in
      let i2 := u32 (v + K) in
      let i3 := v in
      if rev then add_quad m alt u v i1 i0 i3 i2 off else add_quad m alt u v i0 i1 i2 i3 off) m ;;
    Ok ((off + K)%nat, m)) ((center + 1)%nat, m) ;;
  Ok (snd s).

(** ** MeshGeneratorCone.cpp *)

Record cone := mkConeD { co_radius : vec2; co_height : R; co_u : nat; co_v : nat; co_cover : nat; co_alt : bool }.

(** 45-68 *)
Definition cone_vertex (d : cone) (half : R) (H V : nat) (angle : R) (u v : nat) : vertex :=
  let s := sin angle in let c := cos angle in
  let coord := V3 (s * x2 (co_radius d)) (- half) (c * y2 (co_radius d)) in
  let normal := normalize (V3 s 0 c) in
  let ty := frac v V in
  mkVertex (lerp3 (V3 0 half 0) coord ty) (lerp3 (V3 0 1 0) normal (sqrt ty)) (V2 (frac (H - u) H) ty).
(** 71-76 *)
Definition cone_tip (half : R) (H u : nat) : vertex := mkVertex (V3 0 half 0) (V3 0 1 0) (V2 (frac (H - u) H) 0).

(** 33-80 *)
Definition cone_vertices (m : gmesh) (d : cone) (step half : R) (H V : nat) : outcome gmesh :=
  s <- for_le 0 H (fun u (s : R * gmesh) =>
    let (angle, m) := s in
    m <- for_le 1 V (fun v m => Ok (add_v m (cone_vertex d half H V angle u v))) m ;;
    let m := if (u <? H)%nat then add_v m (cone_tip half H u) else m in
    Ok (angle + step, m)) (0, m) ;;
  Ok (snd s).

(** 120-138 *)
Definition cone_quads (m : gmesh) (alt : bool) (H V off : nat) : outcome gmesh :=
  s <- for_lt 0 H (fun u (s : nat * gmesh) =>
    let (off, m) := s in
    m <- add_t m (off + V) off (off + 1 + V) ;;
    m <- for_lt 1 V (fun v m =>
      let i0 := u32 (v + V) in
      let i1 := (v - 1)%nat in
      let i2 := v in
      let i3 := u32 (v + 1 + V) in
      add_quad m alt u v i0 i1 i2 i3 off) m ;;
    Ok ((off + u32 (1 + V))%nat, m)) (off, m) ;;
  Ok (snd s).

(** GenerateCone, 18-162 *)
Definition generate_cone (d : cone) (m : gmesh) : outcome gmesh :=
  let off := length (verts m) in
  let H := Nat.max 3 (co_u d) in
  let V := Nat.max 1 (co_v d) in
  let K := co_cover d in
  let step := 1 / INR H * pi_2 in
  let half := co_height d * (1 / 2) in
  m <- cone_vertices m d step half H V ;;
  let cov := length (verts m) in
  m <- (if (0 <? K)%nat then disc_vertices m 0 step (x2 (co_radius d)) (y2 (co_radius d)) (- half) (-1) false H K else Ok m) ;;
  m <- cone_quads m (co_alt d) H V off ;;
  if (0 <? K)%nat then disc_quads m (co_alt d) false H K cov else Ok m.

(** ** MeshGeneratorCylinder.cpp *)

Record cylinder := mkCylinder {
  cy_radius : vec2; cy_height : R; cy_u : nat; cy_v : nat; cy_top : nat; cy_bottom : nat; cy_alt : bool }.

(** GenerateCylinder, 18-169: the loop over the two covers is unrolled *)
Definition generate_cylinder (d : cylinder) (m : gmesh) : outcome gmesh :=
  let off := length (verts m) in
  let H := Nat.max 3 (cy_u d) in
  let V := Nat.max 1 (cy_v d) in
  let step := 1 / INR H * pi_2 in
  let half := cy_height d * (1 / 2) in
  let rx := x2 (cy_radius d) in let rz := y2 (cy_radius d) in
  m <- mantle_vertices m 0 step rx rz half 1 H V ;;
  let cov0 := length (verts m) in
  m <- (if (cy_bottom d =? 0)%nat then Ok m else disc_vertices m 0 step rx rz (half * -1) (-1) false H (cy_bottom d)) ;;
  let cov1 := length (verts m) in
  m <- (if (cy_top d =? 0)%nat then Ok m else disc_vertices m 0 step rx rz (half * 1) 1 true H (cy_top d)) ;;
  m <- mantle_quads m (cy_alt d) false H V off ;;
  m <- (if (cy_bottom d =? 0)%nat then Ok m else disc_quads m (cy_alt d) false H (cy_bottom d) cov0) ;;
  if (cy_top d =? 0)%nat then Ok m else disc_quads m (cy_alt d) true H (cy_top d) cov1.

(** ** MeshGeneratorPipe.cpp *)

Record pipe := mkPipe {
  pp_inner : vec2; pp_outer : vec2; pp_height : R; pp_u : nat; pp_v : nat; pp_top : nat; pp_bottom : nat; pp_alt : bool }.

(** 99-126 *)
Definition ring_vertex (d : pipe) (y side : R) (flip : bool) (K : nat) (angle : R) (v : nat) : vertex :=
  let s := sin angle in let c := cos angle in
  let coord := V3 (s * x2 (pp_outer d)) y (c * y2 (pp_outer d)) in
  let alt := V3 (s * x2 (pp_inner d)) y (c * y2 (pp_inner d)) in
  let interp := frac v K in
  let ix := 1 / (x2 (pp_outer d) * 2) in let iy := 1 / (y2 (pp_outer d) * 2) in
  let ax := 1 / 2 + vx alt * ix in let ay := 1 / 2 + vz alt * iy in
  let bx := 1 / 2 + vx coord * ix in let by_ := 1 / 2 + vz coord * iy in
  mkVertex (lerp3 alt coord interp) (V3 0 side 0)
    (V2 (lerp ax bx interp) (lerp (if flip then 1 - ay else ay) (if flip then 1 - by_ else by_) interp)).

(** 89-131 *)
Definition ring_vertices (m : gmesh) (d : pipe) (step y side : R) (flip : bool) (H K : nat) : outcome gmesh :=
  s <- for_le 0 H (fun _ (s : R * gmesh) =>
    let (angle, m) := s in
    m <- for_le 0 K (fun v m => Ok (add_v m (ring_vertex d y side flip K angle v))) m ;;
    Ok (angle + step, m)) (0, m) ;;
  Ok (snd s).

(** 166-184 *)
Definition ring_quads (m : gmesh) (alt rev : bool) (H K off : nat) : outcome gmesh :=
  s <- for_lt 0 H (fun u (s : nat * gmesh) =>
    let (off, m) := s in
    m <- for_lt 0 K (fun v m =>
      let i0 := v in
      let i1 := u32 (v + 1 + K) in
      let i2 := u32 (v + 2 + K) in
      let i3 := u32 (v + 1) in
      if rev then add_quad m alt u v i1 i0 i3 i2 off else add_quad m alt u v i0 i1 i2 i3 off) m ;;
    Ok ((off + u32 (K + 1))%nat, m)) (off, m) ;;
  Ok (snd s).

(** GeneratePipe, 18-186 *)
Definition generate_pipe (d : pipe) (m : gmesh) : outcome gmesh :=
  let H := Nat.max 3 (pp_u d) in
  let V := Nat.max 1 (pp_v d) in
  let step := 1 / INR H * pi_2 in
  let half := pp_height d * (1 / 2) in
  let man0 := length (verts m) in
  m <- mantle_vertices m 0 step (x2 (pp_outer d)) (y2 (pp_outer d)) half 1 H V ;;
  let man1 := length (verts m) in
  m <- mantle_vertices m 0 step (x2 (pp_inner d)) (y2 (pp_inner d)) half (-1) H V ;;
  let cov0 := length (verts m) in
  m <- (if (pp_bottom d =? 0)%nat then Ok m else ring_vertices m d step (half * -1) (-1) false H (pp_bottom d)) ;;
  let cov1 := length (verts m) in
  m <- (if (pp_top d =? 0)%nat then Ok m else ring_vertices m d step (half * 1) 1 true H (pp_top d)) ;;
  m <- mantle_quads m (pp_alt d) false H V man0 ;;
  m <- mantle_quads m (pp_alt d) true H V man1 ;;
  m <- (if (pp_bottom d =? 0)%nat then Ok m else ring_quads m (pp_alt d) false H (pp_bottom d) cov0) ;;
  if (pp_top d =? 0)%nat then Ok m else ring_quads m (pp_alt d) true H (pp_top d) cov1.

(** ** MeshGeneratorPie.cpp *)

Record pie := mkPie {
  pi_radius : vec2; pi_height : R; pi_u : nat; pi_v : nat; pi_cover : nat; pi_angle : R; pi_offset : R; pi_alt : bool }.

(** Gs::Clamp *)
Definition clampR (x lo hi : R) : R := if Rltb x lo then lo else if Rltb hi x then hi else x.

(** 84-108 *)
Definition wall_vertex (rx rz half side nangle tc0 tc1 : R) (M V : nat) (u v : nat) : vertex :=
  let r := frac u M in
  let ty := frac v V in
  mkVertex (V3 (sin side * rx * r) (lerp half (- half) ty) (cos side * rz * r)) (V3 (sin nangle) 0 (cos nangle)) (V2 (tc0 + r * tc1) ty).
Definition wall_vertices (m : gmesh) (rx rz half side noff tc0 tc1 : R) (M V : nat) : outcome gmesh :=
  for_le 0 M (fun u m => for_le 0 V (fun v m => Ok (add_v m (wall_vertex rx rz half side (side + noff) tc0 tc1 M V u v))) m) m.

(** GeneratePie, 18-239 *)
Definition generate_pie (d : pie) (m : gmesh) : outcome gmesh :=
  let off := length (verts m) in
  let H := Nat.max 3 (pi_u d) in
  let V := Nat.max 1 (pi_v d) in
  let K := pi_cover d in
  let M := Nat.max 1 K in
  let angle := clampR (pi_angle d) 0 pi_2 in
  let start := pi_offset d + angle in
  let step := 1 / INR H * (pi_2 - angle) in
  let half := pi_height d * (1 / 2) in
  let rx := x2 (pi_radius d) in let rz := y2 (pi_radius d) in
  m <- mantle_vertices m start step rx rz half 1 H V ;;
  let man0 := length (verts m) in
  m <- wall_vertices m rx rz half start (PI + pi_0_5) 1 (-1) M V ;;
  let man1 := length (verts m) in
  m <- wall_vertices m rx rz half (start - angle) pi_0_5 0 1 M V ;;
  let cov0 := length (verts m) in
  m <- (if (0 <? K)%nat then disc_vertices m start step rx rz (half * -1) (-1) false H K else Ok m) ;;
  let cov1 := length (verts m) in
  m <- (if (0 <? K)%nat then disc_vertices m start step rx rz (half * 1) 1 true H K else Ok m) ;;
  m <- mantle_quads m (pi_alt d) false H V off ;;
  m <- mantle_quads m (pi_alt d) false M V man0 ;;
  m <- mantle_quads m (pi_alt d) true M V man1 ;;
  m <- (if (0 <? K)%nat then disc_quads m (pi_alt d) false H K cov0 else Ok m) ;;
  if (0 <? K)%nat then disc_quads m (pi_alt d) true H K cov1 else Ok m.

(** ** MeshGeneratorCapsule.cpp *)

Record capsule := mkCapsule { ca_radius : vec3; ca_height : R; ca_u : nat; ca_v : nat; ca_cap : nat; ca_alt : bool }.

(** 81-105 *)
Definition cap_vertex (d : capsule) (half side : R) (H C : nat) (v u : nat) : vertex :=
  let ty := frac v C in
  let tx := frac u H in
  let s := spherical (ty * pi_0_5) (tx * pi_2 * side + pi_0_5) in
  let coord := V3 (vx s) (vy s * side) (vz s) in
  let p := vmul coord (ca_radius d) in
  mkVertex (V3 (vx p) (vy p + half * side) (vz p)) (normalize coord) (V2 tx ty).

(** GenerateCapsule, 19-147 *)
Definition generate_capsule (d : capsule) (m : gmesh) : outcome gmesh :=
  let off := length (verts m) in
  let H := Nat.max 3 (ca_u d) in
  let V := Nat.max 1 (ca_v d) in
  let C := Nat.max 2 (ca_cap d) in
  let step := 1 / INR H * pi_2 in
  let half := ca_height d * (1 / 2) in
  m <- mantle_vertices m 0 step (vx (ca_radius d)) (vz (ca_radius d)) half 1 H V ;;
  let cap0 := length (verts m) in
  m <- for_le 0 C (fun v m => for_le 0 H (fun u m => Ok (add_v m (cap_vertex d half 1 H C v u))) m) m ;;
  let cap1 := length (verts m) in
  m <- for_le 0 C (fun v m => for_le 0 H (fun u m => Ok (add_v m (cap_vertex d half (-1) H C v u))) m) m ;;
  m <- mantle_quads m (ca_alt d) false H V off ;;
  m <- uv_quads m (ca_alt d) false H C cap0 ;;
  uv_quads m (ca_alt d) false H C cap1.

(** ** MeshGeneratorSpiral.cpp *)

Record spiral := mkSpiral {
  sp_ring : vec2; sp_tube : vec3; sp_displacement : R; sp_turns : R; sp_u : nat; sp_v : nat; sp_top : nat; sp_bottom : nat; sp_alt : bool }.

(** static_cast<std::uint32_t> of a real number that is not negative: undefined beyond the range *)
Definition to_u32 (x : R) : outcome nat := if Rltb x (IZR (2 ^ 32)) then Ok (Z.to_nat (Int_part x)) else Undefined.

(** GetCoverCoordAndNormal, 32-56 *)
Definition cover_coord (d : spiral) (turns theta phi : R) (center : bool) : vec3 :=
  let s1 := sin phi in let c1 := cos phi in
  let coord := V3 (s1 * x2 (sp_ring d)) ((phi / pi_2 - turns * (1 / 2)) * sp_displacement d) (c1 * y2 (sp_ring d)) in
  if center then coord
  else let s0 := sin theta in let c0 := cos theta in
       V3 (vx coord + s1 * s0 * vx (sp_tube d)) (vy coord + c0 * vy (sp_tube d)) (vz coord + c1 * s0 * vz (sp_tube d)).
Definition cover_normal (phi : R) : vec3 := V3 (cos phi) 0 (sin phi).

(** 64-92 *)
Definition spiral_vertex (d : spiral) (turns : R) (U V : nat) (v u : nat) : vertex :=
  let ty := frac v V in
  let theta := ty * pi_2 in
  let s0 := sin theta in let c0 := cos theta in
  let tx := frac u U in
  let phi := tx * pi_2 in
  let s1 := sin phi in let c1 := cos phi in
  let coord := V3 (s1 * x2 (sp_ring d) + s1 * s0 * vx (sp_tube d)) (c0 * vy (sp_tube d) + (tx - turns * (1 / 2)) * sp_displacement d)
                  (c1 * y2 (sp_ring d) + c1 * s0 * vz (sp_tube d)) in
  let normal := V3 (s1 * s0 / vx (sp_tube d)) (c0 / vy (sp_tube d)) (c1 * s0 / vz (sp_tube d)) in
  mkVertex coord (normalize normal) (V2 (- tx) ty).

(** 112-117 *)
Definition spiral_center (d : spiral) (turns phi side : R) : vertex :=
  mkVertex (cover_coord d turns 0 phi true) (vscale side (cover_normal phi)) (V2 (1 / 2) (1 / 2)).
(** 123-141 *)
Definition spiral_cover_vertex (d : spiral) (turns phi side : R) (flip : bool) (K : nat) (theta : R) (j : nat) : vertex :=
  let interp := frac j K in
  let tx := 1 / 2 + sin theta * (1 / 2) * interp in
  let ty := 1 / 2 + cos theta * (1 / 2) * interp in
  mkVertex (lerp3 (cover_coord d turns 0 phi true) (cover_coord d turns theta phi false) interp) (vscale side (cover_normal phi))
    (V2 tx (if flip then 1 - ty else ty)).
(** 108-146 *)
Definition spiral_cover (m : gmesh) (d : spiral) (turns phi side : R) (flip : bool) (V K : nat) : outcome gmesh :=
  let m := add_v m (spiral_center d turns phi side) in
  s <- for_le 0 V (fun _ (s : R * gmesh) =>
    let (theta, m) := s in
    m <- for_le 1 K (fun j m => Ok (add_v m (spiral_cover_vertex d turns phi side flip K theta j))) m ;;
    Ok (theta + 1 / INR V * pi_2, m)) (0, m) ;;
  Ok (snd s).

(** GenerateSpiral, 18-197 *)
Definition generate_spiral (d : spiral) (m : gmesh) : outcome gmesh :=
  let off := length (verts m) in
  let turns := Rmax 0 (sp_turns d) in
  let U := Nat.max 3 (sp_u d) in
  let V := Nat.max 3 (sp_v d) in
  T <- to_u32 (turns * INR U) ;;
  m <- for_le 0 V (fun v m => for_le 0 T (fun u m => Ok (add_v m (spiral_vertex d turns U V v u))) m) m ;;
  let cov0 := length (verts m) in
  m <- (if (sp_bottom d =? 0)%nat then Ok m else spiral_cover m d turns 0 (-1) false V (sp_bottom d)) ;;
  let cov1 := length (verts m) in
  m <- (if (sp_top d =? 0)%nat then Ok m else spiral_cover m d turns (turns * pi_2) 1 true V (sp_top d)) ;;
  m <- uv_quads m (sp_alt d) true T V off ;;
  m <- (if (sp_bottom d =? 0)%nat then Ok m else disc_quads m (sp_alt d) false V (sp_bottom d) cov0) ;;
  if (sp_top d =? 0)%nat then Ok m else disc_quads m (sp_alt d) true V (sp_top d) cov1.

(** ** MeshGeneratorCurve.cpp *)

Record curve_desc := mkCurve {
  cv_curve : option (R -> vec3); cv_radius : R; cv_u : nat; cv_v : nat; cv_alt : bool; cv_modifier : option (R -> R -> R) }.

(** Gs::RotateVectorAroundAxis, for an axis of length one *)
Definition rotate_around (v axis : vec3) (angle : R) : vec3 :=
  vadd (vadd (vscale (cos angle) v) (vscale (sin angle) (cross axis v))) (vscale (dot axis v * (1 - cos angle)) axis).

(** 28-35, the samples of the curve *)
Definition curve_sample (f : R -> vec3) (U i : nat) : vec3 := f (INR i / INR (U - 1)).
(** 48-50 *)
Definition curve_tangent (f : R -> vec3) (U u : nat) : vec3 :=
  normalize (vsub (curve_sample f U ((u + 1) mod (U - 1))) (curve_sample f U u)).
(** 52-65 *)
Definition curve_normal (f : R -> vec3) (U : nat) (u : nat) (ty : R) : vec3 :=
  let t := curve_tangent f U u in
  let b := cross (V3 0 1 0) t in
  rotate_around (normalize (cross t b)) t (ty * pi_2).
(** 43-73 *)
Definition curve_vertex (d : curve_desc) (f : R -> vec3) (U V : nat) (u v : nat) : vertex :=
  let tx := INR u / INR (U - 1) in
  let ty := INR v / INR (V - 1) in
  let n := curve_normal f U u ty in
  let displacement := match cv_modifier d with None => cv_radius d | Some g => cv_radius d * g tx ty end in
  mkVertex (vadd (curve_sample f U u) (vscale displacement n)) n (V2 tx ty).

(** 77-111 *)
Definition tube_quads (m : gmesh) (alt : bool) (U V off : nat) : outcome gmesh :=
  for_lt 0 U (fun u m =>
    for_lt 0 V (fun v m =>
      let i0 := u32 (u * V + v) in
      let i1 := if (v + 1 <? V)%nat then u32 (u * V + v + 1) else u32 (u * V) in
      let i2 := if (u + 1 <? U)%nat then u32 ((u + 1) * V + v) else v in
      let i3 := if (u + 1 <? U)%nat then if (v + 1 <? V)%nat then u32 ((u + 1) * V + v + 1) else u32 ((u + 1) * V)
                else if (v + 1 <? V)%nat then u32 (v + 1) else 0%nat in
      add_quad m alt u v i0 i1 i3 i2 off) m) m.

(** GenerateCurve, 21-112 *)
Definition generate_curve (d : curve_desc) (m : gmesh) : outcome gmesh :=
  let off := length (verts m) in
  let U := Nat.max 3 (cv_u d) in
  let V := Nat.max 3 (cv_v d) in
  match cv_curve d with
  | None => Throws
  | Some f =>
    m <- for_lt 0 U (fun u m => for_lt 0 V (fun v m => Ok (add_v m (curve_vertex d f U V u v))) m) m ;;
    tube_quads m (cv_alt d) U V off
  end.

(** ** MeshGeneratorTorusKnot.cpp *)

Record knot := mkKnot {
  kn_ring : vec3; kn_tube : R; kn_inner : R; kn_loops : nat; kn_turns : nat; kn_u : nat; kn_v : nat; kn_alt : bool; kn_modifier : option (R -> R -> R) }.

(** 25-39 *)
Definition knot_curve (d : knot) (t : R) : vec3 :=
  let t := t * pi_2 in
  let p := INR (kn_loops d) in let q := INR (kn_turns d) in
  let r := cos (q * t) + kn_inner d in
  vmul (V3 (cos (p * t) * r) (sin (q * t)) (sin (p * t) * r)) (kn_ring d).

(** GenerateTorusKnot, 18-47 *)
Definition generate_knot (d : knot) (m : gmesh) : outcome gmesh :=
  generate_curve (mkCurve (Some (knot_curve d)) (kn_tube d) (kn_u d) (kn_v d) (kn_alt d) (kn_modifier d)) m.

(** ** MeshGeneratorBezierPatch.cpp *)

Record bezier_desc := mkBezier { bp_patch : patch; bp_u : nat; bp_v : nat; bp_alt : bool; bp_back : bool }.

(** 46-64; [None]: the patch evaluates a division of integers by zero *)
Definition bezier_vertex (d : bezier_desc) (H V : nat) (i j : nat) : option vertex :=
  let tx := frac j H in
  let ty := frac i V in
  match patch_eval (bp_patch d) tx ty, patch_eval (bp_patch d) (tx + 1 / 100) ty, patch_eval (bp_patch d) tx (ty + 1 / 100) with
  | Some coord, Some cu, Some cv =>
    let n := normalize (cross (vsub cu coord) (vsub cv coord)) in
    Some (if bp_back d then mkVertex coord n (V2 tx ty) else mkVertex coord (vopp n) (V2 tx (1 - ty)))
  | _, _, _ => None
  end.

(** GenerateBezierPatch, 18-84 *)
Definition generate_bezier (d : bezier_desc) (m : gmesh) : outcome gmesh :=
  let off := length (verts m) in
  let H := Nat.max 1 (bp_u d) in
  let V := Nat.max 1 (bp_v d) in
  m <- for_le 0 V (fun i m => for_le 0 H (fun j m =>
         match bezier_vertex d H V i j with Some v => Ok (add_v m v) | None => Undefined end) m) m ;;
  row_quads m (bp_alt d) (bp_back d) H V off.

(** ** All generators *)

Inductive descriptor :=
| DCuboid (d : cuboid) | DEllipsoid (d : ellipsoid) | DCone (d : cone) | DCylinder (d : cylinder) | DPie (d : pie) | DPipe (d : pipe)
| DCapsule (d : capsule) | DTorus (d : torus) | DKnot (d : knot) | DSpiral (d : spiral) | DCurve (d : curve_desc) | DBezier (d : bezier_desc).

Definition generate (d : descriptor) (m : gmesh) : outcome gmesh :=
  match d with
  | DCuboid d => generate_cuboid d m | DEllipsoid d => generate_ellipsoid d m | DCone d => generate_cone d m
  | DCylinder d => generate_cylinder d m | DPie d => generate_pie d m | DPipe d => generate_pipe d m
  | DCapsule d => generate_capsule d m | DTorus d => generate_torus d m | DKnot d => generate_knot d m
  | DSpiral d => generate_spiral d m | DCurve d => generate_curve d m | DBezier d => generate_bezier d m
  end.
