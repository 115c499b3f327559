(** What the operations on triangle meshes mean. *)
From Coq Require Import Reals List Arith.
From Verif Require Import Model.Vec Model.Mesh.
Import ListNotations.

(** The three corners of a triangle; its sides, as unordered pairs. *)
Definition corner_of (t : tri) (v : nat) : Prop := v = ta t \/ v = tb t \/ v = tc t.
Definition side_of (t : tri) (a b : nat) : Prop :=
  (a = ta t /\ b = tb t) \/ (a = tb t /\ b = tc t) \/ (a = tc t /\ b = ta t) \/
  (b = ta t /\ a = tb t) \/ (b = tb t /\ a = tc t) \/ (b = tc t /\ a = ta t).

(** Lexicographic order on pairs. *)
Definition lex_lt (x y : nat * nat) : Prop := fst x < fst y \/ (fst x = fst y /\ snd x < snd y).

(** All indices address existing vertices. *)
Definition in_range (n : nat) (t : tri) : Prop := ta t < n /\ tb t < n /\ tc t < n.
Definition well_formed {V} (m : mesh V) : Prop := forall t, In t (tris m) -> in_range (length (verts m)) t.

(** Triangle number [i] is reachable from one of [start] in at most [k] steps of the neighbor relation. *)
Inductive within_steps (nb : nat -> nat -> Prop) (start : list nat) : nat -> nat -> Prop :=
| ws_start : forall k i, In i start -> within_steps nb start k i
| ws_step : forall k i j, within_steps nb start k i -> nb i j -> within_steps nb start (S k) j.

(** When two corners (vertex indices) are regarded as the same. *)
Definition same_corner {V} (equals : V -> V -> bool) (by_pos : bool) (m : mesh V) (u v : nat) : Prop :=
  if by_pos then exists x y, nth_error (verts m) u = Some x /\ nth_error (verts m) v = Some y /\ equals x y = true else u = v.
(** A corner of [t] coincides with a corner of [u]. *)
Definition touches {V} equals by_pos (m : mesh V) (t u : tri) : Prop :=
  exists v w, corner_of t v /\ corner_of u w /\ same_corner equals by_pos m v w.
(** Two of the three corners of [t] coincide with corners of [u]. *)
Definition two_corners {V} equals by_pos (m : mesh V) (t u : tri) : Prop :=
  let hit v := exists w, corner_of u w /\ same_corner equals by_pos m v w in
  (hit (ta t) /\ hit (tb t)) \/ (hit (tb t) /\ hit (tc t)) \/ (hit (ta t) /\ hit (tc t)).
(** The triangles have a common side. *)
Definition share_side (t u : tri) : Prop := exists a b, a <> b /\ side_of t a b /\ side_of u a b.

(** The relation between numbers of triangles: [j] is a neighbor of [i]. *)
Definition neighbor_rel {V} equals (edge_bond by_pos : bool) (m : mesh V) (i j : nat) : Prop :=
  exists t u, nth_error (tris m) j = Some t /\ nth_error (tris m) i = Some u /\
    if edge_bond then two_corners equals by_pos m t u else touches equals by_pos m t u.

(** Angle between two unit vectors. *)
Definition angle (a b : vec3) : R := acos (dot a b).
