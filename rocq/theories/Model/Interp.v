(** Barycentric interpolation of vertices: include/Geom/MeshModifier.h, sources/MeshModifier.cpp, sources/TriangleMesh.cpp.

    Buffers are arrays of Gs::Real (exact reals here); offsets and strides are counted in units of sizeof(Gs::Real), i.e.
    descriptors whose byte offsets are not multiples of it (misaligned accesses) are not modelled.  The output buffer does not
    overlap the input buffer.  Accesses outside of a buffer give [None]. *)
From Coq Require Import Reals List Arith.
From Verif Require Import Model.Vec Model.Mesh.
Import ListNotations.
Local Open Scope R_scope.

(** MeshModifier.h:30-44 *)
Record attrib := mkAttrib { offset : nat; components : nat }.
(** MeshModifier.h:47-65 *)
Record vertex_desc := mkDesc { attributes : list attrib; stride : nat }.

(** GetVertexStride, MeshModifier.cpp:24-33 *)
Definition get_stride (d : vertex_desc) : nat :=
  match stride d with
  | O => fold_left (fun s a => (s + components a)%nat) (attributes d) O
  | s => s
  end.

(** GetDefaultVertexDesc, MeshModifier.cpp:88-99 *)
Definition default_desc : vertex_desc := mkDesc [mkAttrib 0 3; mkAttrib 3 3; mkAttrib 6 2] 0.

(** One assignment [out[i] = ...], MeshModifier.cpp:122-128; the pointers are the positions of Attrib(), 73-76. *)
Definition write_component (inp : list R) (st v0 v1 v2 : nat) (w : vec3) (off i : nat) (out : list R) : option (list R) :=
  match nth_error inp (v0 * st + off + i), nth_error inp (v1 * st + off + i), nth_error inp (v2 * st + off + i) with
  | Some a, Some b, Some c =>
      if (off + i <? length out)%nat then Some (set_nth out (off + i) (a * vx w + b * vy w + c * vz w)) else None
  | _, _, _ => None
  end.
(** The loop 120-128, from component [i] on, [n] components left. *)
Fixpoint write_attrib inp st v0 v1 v2 w (off i n : nat) (out : list R) : option (list R) :=
  match n with
  | O => Some out
  | S n' => match write_component inp st v0 v1 v2 w off i out with
            | None => None
            | Some out' => write_attrib inp st v0 v1 v2 w off (S i) n' out'
            end
  end.
(** The loop 112-129 *)
Fixpoint write_attribs inp st v0 v1 v2 w (l : list attrib) (out : list R) : option (list R) :=
  match l with
  | [] => Some out
  | a :: l' => match write_attrib inp st v0 v1 v2 w (offset a) 0 (components a) out with
               | None => None
               | Some out' => write_attribs inp st v0 v1 v2 w l' out'
               end
  end.
(** InterpolateBarycentric, MeshModifier.cpp:101-130 *)
Definition interpolate_barycentric (d : vertex_desc) (out inp : list R) (v0 v1 v2 : nat) (w : vec3) : option (list R) :=
  write_attribs inp (get_stride d) v0 v1 v2 w (attributes d) out.

(** TriangleMesh::Vertex, TriangleMesh.h:41-53, and its eight scalars in memory. *)
Record vertex := mkVertex { position : vec3; normal : vec3; tex_coord : vec2 }.
Definition scalars (v : vertex) : list R :=
  [vx (position v); vy (position v); vz (position v); vx (normal v); vy (normal v); vz (normal v); x2 (tex_coord v); y2 (tex_coord v)].
Definition of_scalars (l : list R) : option vertex :=
  match l with
  | [a; b; c; d; e; f; g; h] => Some (mkVertex (V3 a b c) (V3 d e f) (V2 g h))
  | _ => None
  end.
(** TriangleMesh::Barycentric, TriangleMesh.cpp:82-116; [v] is the vertex local to the function. *)
Definition barycentric (m : mesh vertex) (v : vertex) (i : nat) (w : vec3) : option vertex :=
  match nth_error (tris m) i with
  | None => None
  | Some t =>
      match interpolate_barycentric default_desc (scalars v) (flat_map scalars (verts m)) (ta t) (tb t) (tc t) w with
      | None => None
      | Some l => of_scalars l
      end
  end.
