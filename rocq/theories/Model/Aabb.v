(** Axis-aligned bounding boxes: include/Geom/AABB.h. *)
From Coq Require Import ZArith List Bool.
Import ListNotations.

(** The scalar type T of a box, as far as the code without arithmetic uses it: operator <, std::numeric_limits<T>::max()
    and lowest().  [a > b] is [b < a]. *)
Record order := mkOrder { ocar : Type; olt : ocar -> ocar -> bool; omax : ocar; olow : ocar }.

Section Aabb.
Variable O : order.
Notation T := (ocar O).

(** Vec<T>: the list of its components.  A box is the list of its pairs (min[i], max[i]), AABB.h:167.  The loops over
    [i < Vec<T>::components] become recursion over the components; the number of components is the length of the lists. *)
Definition point := list T.
Definition box := list (T * T).

Fixpoint map2 {A B C} (f : A -> B -> C) (l : list A) (m : list B) : list C :=
  match l, m with x :: l', y :: m' => f x y :: map2 f l' m' | _, _ => [] end.
Fixpoint all2 {A B} (f : A -> B -> bool) (l : list A) (m : list B) : bool :=
  match l, m with x :: l', y :: m' => if f x y then all2 f l' m' else false | _, _ => true end.

(** AABB.h:52-59 *)
Definition reset (n : nat) : box := repeat (omax O, olow O) n.
(** AABB.h:62-65 *)
Definition reset_to (p : point) : box := map (fun x => (x, x)) p.

(** AABB.h:67-76 *)
Definition insert_point (b : box) (p : point) : box :=
  map2 (fun i x => (if olt O x (fst i) then x else fst i, if olt O (snd i) x then x else snd i)) b p.

(** AABB.h:78-87 *)
Definition insert_box (b c : box) : box :=
  map2 (fun i j => (if olt O (fst j) (fst i) then fst j else fst i, if olt O (snd i) (snd j) then snd j else snd i)) b c.

(** AABB.h:89-96 *)
Definition repair (b : box) : box := map (fun i => if olt O (snd i) (fst i) then (snd i, fst i) else i) b.

(** AABB.h:123-131 *)
Definition inside_of (b outer : box) : bool :=
  all2 (fun i o => negb (olt O (fst i) (fst o) || olt O (snd o) (snd i))) b outer.
(** AABB.h:138-141 *)
Definition contains_box (b inner : box) : bool := inside_of inner b.
(** AABB.h:144-152 *)
Definition contains_point (b : box) (p : point) : bool :=
  all2 (fun i x => negb (olt O x (fst i) || olt O (snd i) x)) b p.
(** AABB.h:195-204 *)
Definition overlap (a b : box) : bool :=
  all2 (fun i j => negb (olt O (snd i) (fst j) || olt O (snd j) (fst i))) a b.

(** What is inserted into a box. *)
Inductive item := IPoint (p : point) | IBox (b : box).
Definition insert_item (b : box) (i : item) : box :=
  match i with IPoint p => insert_point b p | IBox c => insert_box b c end.
Definition insert_items (b : box) (l : list item) : box := fold_left insert_item l b.
End Aabb.
Arguments IPoint {O}. Arguments IBox {O}.

(** AABBEdges, AABB.h:208-221 (2D) and 225-248 (3D); a line is a pair of points. *)
Definition edges2 {T} (a b : T * T) : list ((T * T) * (T * T)) :=
  let (ax, ay) := a in let (bx, by_) := b in
  [ ((ax, ay), (ax, by_)); ((ax, by_), (bx, by_)); ((bx, by_), (bx, ay)); ((bx, ay), (ax, ay)) ].
Definition edges3 {T} (a b : T * T * T) : list ((T * T * T) * (T * T * T)) :=
  let '(ax, ay, az) := a in let '(bx, by_, bz) := b in
  [ ((ax, ay, az), (ax, by_, az)); ((ax, by_, az), (bx, by_, az)); ((bx, by_, az), (bx, ay, az)); ((bx, ay, az), (ax, ay, az));
    ((ax, ay, bz), (ax, by_, bz)); ((ax, by_, bz), (bx, by_, bz)); ((bx, by_, bz), (bx, ay, bz)); ((bx, ay, bz), (ax, ay, bz));
    ((ax, ay, az), (ax, ay, bz)); ((ax, by_, az), (ax, by_, bz)); ((bx, by_, az), (bx, by_, bz)); ((bx, ay, az), (bx, ay, bz)) ].
