(** Triangle meshes: include/Geom/TriangleMesh.h, sources/TriangleMesh.cpp.

    Vertex and triangle indices are natural numbers: all indices that occur in a mesh with in-range indices are below the
    size of a std::vector, so no size_t wraps.  Reading beyond the end of a vector is [None]. *)
From Coq Require Import Reals List Bool Arith.
From Verif Require Import Model.Scalar Model.Vec Model.Aabb.
Import ListNotations.

Definition tri : Type := (nat * nat * nat)%type.
Definition edge : Type := (nat * nat)%type.
Definition ta (t : tri) : nat := fst (fst t).
Definition tb (t : tri) : nat := snd (fst t).
Definition tc (t : tri) : nat := snd t.

(** TriangleMesh.h:146-147; [V] is the type of vertices. *)
Record mesh (V : Type) := mkMesh { verts : list V; tris : list tri }.
Arguments mkMesh {V}. Arguments verts {V}. Arguments tris {V}.

Section Mesh.
Context {V : Type}.
Implicit Types m : mesh V.

(** Clear, TriangleMesh.cpp:61-65 *)
Definition clear m : mesh V := mkMesh [] [].
(** AddVertex, TriangleMesh.cpp:67-72: the index of the new vertex and the mesh. *)
Definition add_vertex m (v : V) : nat * mesh V := (length (verts m), mkMesh (verts m ++ [v]) (tris m)).
(** AddTriangle, TriangleMesh.cpp:74-80; [None] is the failing assertion. *)
Definition add_triangle m (a b c : nat) : option (nat * mesh V) :=
  let n := length (verts m) in
  if (a <? n) && (b <? n) && (c <? n) then Some (length (tris m), mkMesh (verts m) (tris m ++ [(a, b, c)])) else None.

(** ** Edges, TriangleMesh.cpp:118-162 *)

(** AddEdge, 122-128 *)
Definition add_edge (a b : nat) : edge := if a <? b then (a, b) else (b, a).
(** 131-136 *)
Definition raw_edges (l : list tri) : list edge :=
  flat_map (fun t => [add_edge (ta t) (tb t); add_edge (tb t) (tc t); add_edge (tc t) (ta t)]) l.
(** The comparison of std::sort, 141-148 *)
Definition edge_lt (x y : edge) : bool :=
  if fst x <? fst y then true else if fst y <? fst x then false else snd x <? snd y.
(** std::sort, as insertion sort (equal edges are identical, so every sorting algorithm gives the same list). *)
Fixpoint edge_insert (e : edge) (l : list edge) : list edge :=
  match l with [] => [e] | x :: l' => if edge_lt x e then x :: edge_insert e l' else e :: l end.
Definition edge_sort (l : list edge) : list edge := fold_right edge_insert [] l.
(** The comparison of std::unique, 153-156 *)
Definition edge_eqb (x y : edge) : bool := (fst x =? fst y) && (snd x =? snd y).
(** std::unique and erase, 151-159: of every run of equal elements the first one is kept. *)
Fixpoint unique_from (last : edge) (l : list edge) : list edge :=
  match l with [] => [] | x :: l' => if edge_eqb last x then unique_from last l' else x :: unique_from x l' end.
Definition unique (l : list edge) : list edge := match l with [] => [] | x :: l' => x :: unique_from x l' end.
Definition edges m : list edge := unique (edge_sort (raw_edges (tris m))).

(** ** FindTriangles, TriangleMesh.cpp:273-285 and 287-307 *)

(** [for (i = 0; i < triangles.size(); ++i) if (p triangles[i]) result.push_back(i)] *)
Fixpoint find_from (p : tri -> bool) (i : nat) (l : list tri) : list nat :=
  match l with [] => [] | t :: l' => if p t then i :: find_from p (S i) l' else find_from p (S i) l' end.
Definition find_by_vertex m (v : nat) : list nat :=
  find_from (fun t => (ta t =? v) || (tb t =? v) || (tc t =? v)) 0 (tris m).
(** HasEdge, 291-297 *)
Definition has_edge (t : tri) (v0 v1 : nat) : bool :=
  ((ta t =? v0) && (tb t =? v1)) || ((tb t =? v0) && (tc t =? v1)) || ((tc t =? v0) && (ta t =? v1)).
Definition find_by_edge m (e : edge) : list nat :=
  find_from (fun t => has_edge t (fst e) (snd e) || has_edge t (snd e) (fst e)) 0 (tris m).

(** TriangleList, TriangleMesh.cpp:309-325 *)
Definition corners (vs : list V) (t : tri) : option (V * V * V) :=
  match nth_error vs (ta t), nth_error vs (tb t), nth_error vs (tc t) with
  | Some a, Some b, Some c => Some (a, b, c)
  | _, _, _ => None
  end.
Definition triangle_list m : list (option (V * V * V)) := map (corners (verts m)) (tris m).

(** ** SilhouetteEdges, TriangleMesh.cpp:164-200, over exact reals *)
Section Silhouette.
Variable pos : V -> vec3.
Variable eps : R.   (* Gs::Epsilon<Gs::Real>() *)

(** TriangleNormal, TriangleMesh.cpp:327-338 *)
Definition triangle_normal m (i : nat) : option vec3 :=
  match nth_error (tris m) i with
  | None => None
  | Some t => match corners (verts m) t with
              | None => None
              | Some (a, b, c) => Some (normalize (cross (vsub (pos b) (pos a)) (vsub (pos c) (pos a))))
              end
  end.

(** The loop 181-186: [Some true] if it runs to the end ("return true"). *)
Fixpoint all_similar m (tol : R) (n0 : vec3) (l : list nat) : option bool :=
  match l with
  | [] => Some true
  | i :: l' => match triangle_normal m i with
               | None => None
               | Some n => if Rleb (eps + tol) (Rabs (dot n n0 - 1)) then Some false else all_similar m tol n0 l'
               end
  end.
(** PartOfSilh, 172-192 (true: the edge is removed). *)
Definition part_of_silh m (tol : R) (e : edge) : option bool :=
  match find_by_edge m e with
  | i :: j :: l => match triangle_normal m i with None => None | Some n0 => all_similar m tol n0 (j :: l) end
  | _ => Some false
  end.
(** std::remove_if and erase, 195-198 *)
Fixpoint remove_if m (tol : R) (l : list edge) : option (list edge) :=
  match l with
  | [] => Some []
  | e :: l' => match part_of_silh m tol e, remove_if m tol l' with
               | Some b, Some r => Some (if b then r else e :: r)
               | _, _ => None
               end
  end.
Definition silhouette_edges m (tolerance : R) : option (list edge) := remove_if m (sin (Rabs tolerance)) (edges m).
End Silhouette.

(** ** TriangleNeighbors, TriangleMesh.cpp:202-271 *)
Section Neighbors.
(** MatchVertex, 210-213: Gs::Equals on the positions of two vertices. *)
Variable equals : V -> V -> bool.

Definition match_vertex m (a b : nat) : option bool :=
  match nth_error (verts m) a, nth_error (verts m) b with Some x, Some y => Some (equals x y) | _, _ => None end.
(** operator || on results that may be undefined *)
Definition oor (x y : option bool) : option bool :=
  match x with Some true => Some true | Some false => y | None => None end.
(** HasVertex, 215-220 *)
Definition has_vertex m (by_pos : bool) (t : tri) (v : nat) : option bool :=
  if by_pos then oor (oor (match_vertex m v (ta t)) (match_vertex m v (tb t))) (match_vertex m v (tc t))
  else Some ((v =? ta t) || (v =? tb t) || (v =? tc t)).
(** 239-264: is triangle [t] (with number i) a neighbor of triangle [u] (with number j)? *)
Definition is_neighbor m (edge_bond by_pos : bool) (t u : tri) : option bool :=
  if edge_bond then
    match has_vertex m by_pos u (ta t), has_vertex m by_pos u (tb t), has_vertex m by_pos u (tc t) with
    | Some x, Some y, Some z => Some (2 <=? (if x then 1 else 0) + (if y then 1 else 0) + (if z then 1 else 0))
    | _, _, _ => None
    end
  else oor (oor (has_vertex m by_pos u (ta t)) (has_vertex m by_pos u (tb t))) (has_vertex m by_pos u (tc t)).
(** The loop over the set, 235-265: is [t] a neighbor of a triangle of the set? *)
Fixpoint neighbor_of_any m (eb bp : bool) (t : tri) (s : list nat) : option bool :=
  match s with
  | [] => Some false
  | j :: s' => match nth_error (tris m) j with
               | None => None
               | Some u => match is_neighbor m eb bp t u, neighbor_of_any m eb bp t s' with
                           | Some x, Some y => Some (x || y)
                           | _, _ => None
                           end
               end
  end.
(** std::set as an ascending list: insert *)
Fixpoint set_insert (x : nat) (s : list nat) : list nat :=
  match s with
  | [] => [x]
  | y :: s' => if x <? y then x :: s else if y <? x then y :: set_insert x s' else s
  end.
(** The loop over all triangles, 228-266: the set [neighbors] *)
Fixpoint find_neighbors m (eb bp : bool) (s : list nat) (i : nat) (l : list tri) : option (list nat) :=
  match l with
  | [] => Some []
  | t :: l' =>
      match (if existsb (Nat.eqb i) s then Some false else neighbor_of_any m eb bp t s), find_neighbors m eb bp s (S i) l' with
      | Some x, Some r => Some (if x then set_insert i r else r)
      | _, _ => None
      end
  end.
(** The loop over the depth, 225-270 *)
Fixpoint neighbors m (eb bp : bool) (s : list nat) (depth : nat) : option (list nat) :=
  match depth with
  | O => Some s
  | S d => match find_neighbors m eb bp s 0 (tris m) with
           | None => None
           | Some r => neighbors m eb bp (fold_left (fun q x => set_insert x q) r s) d
           end
  end.
(** The parameter is a std::set, built from any list of indices. *)
Definition triangle_neighbors m (start : list nat) (depth : nat) (eb bp : bool) : option (list nat) :=
  neighbors m eb bp (fold_left (fun q x => set_insert x q) start []) depth.
End Neighbors.

(** ** Append, TriangleMesh.cpp:417-436 *)

(** std::copy to position [off] of [dst]: undefined if it goes beyond the end. *)
Definition copy_to {A} (dst : list A) (off : nat) (src : list A) : option (list A) :=
  if off + length src <=? length dst then Some (firstn off dst ++ src ++ skipn (off + length src) dst) else None.
(** std::vector::resize to a greater size; [d] is the default value. *)
Definition grow {A} (d : A) (l : list A) (n : nat) : list A := l ++ repeat d n.
Definition shift_tri (k : nat) (t : tri) : tri := (ta t + k, tb t + k, tc t + k).
(** 429-435: shift the triangles from position [off] on. *)
Definition shift_from (off k : nat) (l : list tri) : list tri := firstn off l ++ map (shift_tri k) (skipn off l).

Variable dv : V.   (* default constructed vertex *)
Definition append m (o : mesh V) : option (mesh V) :=
  let off := length (verts m) in
  match copy_to (grow dv (verts m) (length (verts o))) off (verts o) with
  | None => None
  | Some vs =>
      let toff := length (tris m) in
      match copy_to (grow (0, 0, 0) (tris m) (length (tris o))) toff (tris o) with
      | None => None
      | Some ts => Some (mkMesh vs (shift_from toff off ts))
      end
  end.
(** The same code with [other] being the mesh itself: std::copy then reads from the vector that was just resized. *)
Definition append_self m : option (mesh V) :=
  let off := length (verts m) in
  let vs := grow dv (verts m) (length (verts m)) in
  match copy_to vs off vs with
  | None => None
  | Some vs' =>
      let toff := length (tris m) in
      let ts := grow (0, 0, 0) (tris m) (length (tris m)) in
      match copy_to ts toff ts with
      | None => None
      | Some ts' => Some (mkMesh vs' (shift_from toff off ts'))
      end
  end.
End Mesh.

(** Assignment to an element of a vector *)
Fixpoint set_nth {A} (l : list A) (k : nat) (x : A) : list A :=
  match l, k with
  | [], _ => []
  | _ :: l', O => x :: l'
  | y :: l', S k' => y :: set_nth l' k' x
  end.

(** ** BoundingBox, TriangleMesh.cpp:340-348 and 350-358 (there [f] is the transformation by the matrix) *)
Section Box.
Variable O : order.
Context {V : Type}.
Variable pos : V -> point O.
Definition bounding_box (f : point O -> point O) (m : mesh V) : box O :=
  fold_left (fun b v => insert_point O b (f (pos v))) (verts m) (reset O 3).

(** ** BoundingBoxMultiThreaded, TriangleMesh.cpp:362-413 *)

(** A worker thread: the box it writes and the vertices it has yet to insert (BoundingBoxThreadProc, 362-366); the constructor
    says if it exists already.  *)
Inductive worker := Waiting | Running (b : box O) (todo : list V) | Finished (b : box O).

(** The program counter of the calling thread: starting worker i (387-397), inserting the remaining vertices (400-403), joining
    worker i and inserting its box (406-410), returned (412). *)
Inductive main_pc := Spawn (i : nat) | Rest (b : box O) (todo : list V) | Join (b : box O) (i : nat) | Done (b : box O).

Record mt_state := mkMt { workers : list worker; pc : main_pc }.

(** One atomic step of one of the threads.  [n] is threadCount, [per] verticesPerThread.  A worker whose vertex range left the
    vertex array could not be started (C25 shows that no execution gets stuck). *)
Inductive mt_step (vs : list V) (n per : nat) : mt_state -> mt_state -> Prop :=
| step_spawn : forall ws i, i < n -> per * i + per <= length vs -> nth_error ws i = Some Waiting ->
    mt_step vs n per (mkMt ws (Spawn i))
                     (mkMt (set_nth ws i (Running (reset O 3) (firstn per (skipn (per * i) vs)))) (Spawn (S i)))
| step_spawned : forall ws,
    mt_step vs n per (mkMt ws (Spawn n)) (mkMt ws (Rest (reset O 3) (skipn (per * n) vs)))
| step_work : forall ws p i b v todo, nth_error ws i = Some (Running b (v :: todo)) ->
    mt_step vs n per (mkMt ws p) (mkMt (set_nth ws i (Running (insert_point O b (pos v)) todo)) p)
| step_finish : forall ws p i b, nth_error ws i = Some (Running b []) ->
    mt_step vs n per (mkMt ws p) (mkMt (set_nth ws i (Finished b)) p)
| step_rest : forall ws b v todo,
    mt_step vs n per (mkMt ws (Rest b (v :: todo))) (mkMt ws (Rest (insert_point O b (pos v)) todo))
| step_rested : forall ws b,
    mt_step vs n per (mkMt ws (Rest b [])) (mkMt ws (Join b 0))
| step_join : forall ws b i c, i < n -> nth_error ws i = Some (Finished c) ->
    mt_step vs n per (mkMt ws (Join b i)) (mkMt ws (Join (insert_box O b c) (S i)))
| step_joined : forall ws b,
    mt_step vs n per (mkMt ws (Join b n)) (mkMt ws (Done b)).

Definition mt_init (n : nat) : mt_state := mkMt (repeat Waiting n) (Spawn 0).

Inductive mt_steps (vs : list V) (n per : nat) : mt_state -> mt_state -> Prop :=
| mt_refl : forall s, mt_steps vs n per s s
| mt_more : forall s t u, mt_step vs n per s t -> mt_steps vs n per t u -> mt_steps vs n per s u.

(** 371-383: few vertices or threads are handled by BoundingBox; otherwise the count is clamped. *)
Inductive mt_result (m : mesh V) (threads : nat) : box O -> Prop :=
| mt_sequential : threads < 2 \/ length (verts m) / threads < 64 -> mt_result m threads (bounding_box (fun p => p) m)
| mt_parallel : forall ws b, ~ (threads < 2 \/ length (verts m) / threads < 64) ->
    let n := Nat.min (Nat.max threads 1) (length (verts m)) in
    mt_steps (verts m) n (length (verts m) / n) (mt_init n) (mkMt ws (Done b)) -> mt_result m threads b.
End Box.
