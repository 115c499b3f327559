(** Four boxes at once: include/Geom/VectorizedAABB.h.  The intrinsics of xmmintrin.h act on each of the four lanes alike;
    modelled is one lane.  A lane of a __m128 is a 32-bit pattern, a number below 2^32; [lt] is the comparison of the floats
    these patterns stand for (false if one is NaN). *)
From Coq Require Import NArith List Bool.
From Verif Require Import Model.Aabb.
Import ListNotations.

Section Lane.
Variable lt le : N -> N -> bool.
Definition ones : N := 4294967295.

(** _mm_cmpgt_ps, _mm_cmpge_ps, _mm_cmple_ps: all bits set or clear. *)
Definition mask (b : bool) : N := if b then ones else 0%N.
Definition cmpgt (a b : N) : N := mask (lt b a).
Definition cmpge (a b : N) : N := mask (le b a).
Definition cmple (a b : N) : N := mask (le a b).
(** _mm_and_ps, _mm_or_ps, _mm_andnot_ps *)
Definition and_ps (a b : N) : N := N.land a b.
Definition or_ps (a b : N) : N := N.lor a b.
Definition andnot_ps (a b : N) : N := N.land (N.lxor a ones) b.
(** _mm_min_ps, _mm_max_ps: the second operand if the comparison fails. *)
Definition min_ps (a b : N) : N := if lt a b then a else b.
Definition max_ps (a b : N) : N := if lt b a then a else b.

(** One lane of a box and of a point: lists of components as in Model/Aabb.v. *)
Definition vpoint := list N.
Definition vbox := list (N * N).

(** VectorizedAABB.h:57-62 *)
Definition v_reset_to (p : vpoint) : vbox := map (fun x => (x, x)) p.
(** VectorizedAABB.h:65-78 *)
Definition v_insert_point (b : vbox) (p : vpoint) : vbox := map2 (fun i x => (min_ps (fst i) x, max_ps (snd i) x)) b p.
(** VectorizedAABB.h:81-89 *)
Definition v_insert_box (b c : vbox) : vbox := map2 (fun i j => (min_ps (fst i) (fst j), max_ps (snd i) (snd j))) b c.
(** VectorizedAABB.h:92-102 *)
Definition v_repair (b : vbox) : vbox :=
  map (fun i => let m := cmpgt (fst i) (snd i) in (or_ps (and_ps m (fst i)) (andnot_ps m (snd i)), snd i)) b.
(** VectorizedAABB.h:145-151.  The result is a mask; [x & (y & z)]. *)
Definition v_all (l : list N) : N := fold_right and_ps ones l.
Definition v_inside_of (b outer : vbox) : N :=
  v_all (map2 (fun i o => and_ps (cmpge (fst i) (fst o)) (cmple (snd i) (snd o))) b outer).
(** VectorizedAABB.h:158-161 *)
Definition v_contains_box (b inner : vbox) : N := v_inside_of inner b.
(** VectorizedAABB.h:164-176 *)
Definition v_contains_point (b : vbox) (p : vpoint) : N :=
  v_all (map2 (fun i x => and_ps (cmpge (fst i) x) (cmple (snd i) x)) b p).
(** VectorizedAABB.h:195-201 *)
Definition v_overlap (a b : vbox) : N :=
  v_all (map2 (fun i j => and_ps (cmple (fst j) (snd i)) (cmpge (snd j) (fst i))) a b).
End Lane.
