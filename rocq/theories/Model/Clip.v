(** Clipping of triangles and meshes: include/Geom/TriangleCollision.h 411-527, sources/MeshModifier.cpp 132-207, over exact
    reals. *)
From Coq Require Import Reals List Bool Arith.
From Verif Require Import Model.Scalar Model.Vec Model.Ext Model.Plane Model.Mesh Model.Interp.
Import ListNotations.
Local Open Scope R_scope.

(** ClippedPolygon, TriangleCollision.h 413-425: the used part of the array (count is its length).  [None] is the failing
    assertion count < 4. *)
Definition poly := list vec3.
Definition poly_add (p : poly) (v : vec3) : option poly := if (length p <? 4)%nat then Some (p ++ [v]) else None.

(** The function AddVertex, 455-473 *)
Definition clip_add (v : vec3) (r : relation) (s : option (poly * poly)) : option (poly * poly) :=
  match s with
  | None => None
  | Some (front, back) =>
      match r with
      | Onto => match poly_add front v, poly_add back v with Some f, Some b => Some (f, b) | _, _ => None end
      | InFrontOf => match poly_add front v with Some f => Some (f, back) | None => None end
      | Behind => match poly_add back v with Some b => Some (front, b) | None => None end
      | Clipped => Some (front, back)
      end
  end.

(** 446: the barycentric coordinates of the corners *)
Definition bary_corner (i : nat) : vec3 := match i with O => V3 1 0 0 | S O => V3 0 1 0 | _ => V3 0 0 1 end.
(** 507-518 *)
Definition bary_edge (i : nat) (t : R) : vec3 :=
  match i with O => V3 (1 - t) t 0 | S O => V3 0 (1 - t) t | _ => V3 t 0 (1 - t) end.
Definition tri_corner (a b c : vec3) (i : nat) : vec3 := match i with O => a | S O => b | _ => c end.

Definition relation_eqb (r s : relation) : bool :=
  match r, s with InFrontOf, InFrontOf | Clipped, Clipped | Behind, Behind | Onto, Onto => true | _, _ => false end.

(** The body of the loop, 491-523: edge i from corner [va] to corner [vb], number [j] *)
Definition clip_edge (alt neg : bool) (pl : plane) (i j : nat) (va vb : vec3) (rj : relation) (s : option (poly * poly)) : option (poly * poly) :=
  let s :=
    if relation_eqb rj Onto then s else
    match plane_interp alt neg pl va (vsub vb va) with
    | Fin t => if Rleb 0 t && Rleb t 1 then clip_add (bary_edge i t) Onto s else s
    | _ => s     (* infinite or not a number: t >= 0 && t <= 1 is false *)
    end in
  if (0 <? j)%nat then clip_add (bary_corner j) rj s else s.

(** ClipTriangle, 441-527: the result and both polygons (starting empty); [neg] gives the signs of zero divisors *)
Definition clip_triangle (alt : bool) (neg : nat -> bool) (pl : plane) (a b c : vec3) (eps : R) : option (relation * (poly * poly)) :=
  let r0 := relation_point alt pl a eps in
  let r1 := relation_point alt pl b eps in
  let r2 := relation_point alt pl c eps in
  let front r := negb (relation_eqb r Behind) in
  if front r0 && front r1 && front r2 then Some (InFrontOf, ([], []))
  else if negb (front r0) && negb (front r1) && negb (front r2) then Some (Behind, ([], []))
  else
    let s := clip_add (bary_corner 0) r0 (Some ([], [])) in
    let s := clip_edge alt (neg 0%nat) pl 0 1 a b r1 s in
    let s := clip_edge alt (neg 1%nat) pl 1 2 b c r2 s in
    let s := clip_edge alt (neg 2%nat) pl 2 0 c a r0 s in
    match s with None => None | Some q => Some (Clipped, q) end.

(** ** ClipMesh, MeshModifier.cpp 132-207 *)

(** 161-165 and 171-175 *)
Definition copy_triangle (m out : mesh vertex) (t : tri) : option (mesh vertex) :=
  match corners (verts m) t with
  | None => None
  | Some (a, b, c) =>
      let n := length (verts out) in
      match add_triangle (mkMesh (verts out ++ [a; b; c]) (tris out)) n (n + 1) (n + 2) with
      | None => None
      | Some (_, out') => Some out'
      end
  end.

(** The loops 182-187 and 190-195, from vertex number [i] of the polygon on; [n] is count, [dv] the vertex local to Barycentric *)
Fixpoint add_fan (m : mesh vertex) (dv : vertex) (k n i : nat) (p : poly) (out : mesh vertex) : option (mesh vertex) :=
  match p with
  | [] => Some out
  | w :: p' =>
      match barycentric m dv k w with
      | None => None
      | Some v =>
          let out1 := mkMesh (verts out ++ [v]) (tris out) in
          if (2 <=? i)%nat
          then match add_triangle out1 n (n + i - 1) (n + i) with
               | None => None
               | Some (_, out2) => add_fan m dv k n (S i) p' out2
               end
          else add_fan m dv k n (S i) p' out1
      end
  end.

(** One iteration, 146-205: triangle number [k] *)
Definition clip_one (neg : nat -> nat -> bool) (eps : R) (m : mesh vertex) (dv : vertex) (pl : plane) (k : nat) (t : tri)
    (s : mesh vertex * mesh vertex) : option (mesh vertex * mesh vertex) :=
  let (front, back) := s in
  match corners (verts m) t with
  | None => None
  | Some (a, b, c) =>
      match clip_triangle false (neg k) pl (position a) (position b) (position c) eps with
      | None => None
      | Some (InFrontOf, _) => match copy_triangle m front t with Some f => Some (f, back) | None => None end
      | Some (Behind, _) => match copy_triangle m back t with Some b => Some (front, b) | None => None end
      | Some (Clipped, (fp, bp)) =>
          match add_fan m dv k (length (verts front)) 0 fp front, add_fan m dv k (length (verts back)) 0 bp back with
          | Some f, Some b => Some (f, b)
          | _, _ => None
          end
      | Some (Onto, _) => Some (front, back)
      end
  end.
Fixpoint clip_loop neg eps m dv pl (k : nat) (l : list tri) (s : mesh vertex * mesh vertex) : option (mesh vertex * mesh vertex) :=
  match l with
  | [] => Some s
  | t :: l' => match clip_one neg eps m dv pl k t s with
               | None => None
               | Some s' => clip_loop neg eps m dv pl (S k) l' s'
               end
  end.
(** 132-140: [front] and [back] are cleared first; they are objects distinct from the mesh.  Plane is PlaneT<Gs::Real>, with the
    default equation n*x = d. *)
Definition clip_mesh neg eps (m : mesh vertex) (dv : vertex) (pl : plane) (front back : mesh vertex) : option (mesh vertex * mesh vertex) :=
  clip_loop neg eps m dv pl 0 (tris m) (clear front, clear back).

(** The same call with the mesh itself as front mesh: it is cleared before it is read. *)
Definition clip_mesh_self neg eps (m : mesh vertex) (dv : vertex) (pl : plane) (back : mesh vertex) : option (mesh vertex * mesh vertex) :=
  clip_loop neg eps (clear m) dv pl 0 (tris (clear m)) (clear m, clear back).
