(** Boxes as sets of points over an order; which values count as comparable. *)
From Coq Require Import List Bool.
From Verif Require Import Model.Aabb. (* types [order], [point], [box], [item] only *)
Import ListNotations.

(** The values satisfying [ok] (e.g. all floats but NaN) are a strict weak order under the C++ operator <. *)
Record order_laws (O : order) (ok : ocar O -> Prop) : Prop := mkOL {
  ol_max : ok (omax O);
  ol_low : ok (olow O);
  ol_asym : forall x y, ok x -> ok y -> olt O x y = true -> olt O y x = false;
  ol_neg : forall x y z, ok x -> ok y -> ok z -> olt O x z = true -> olt O x y = true \/ olt O y z = true }.

Section Spec.
Variable O : order.
Variable ok : ocar O -> Prop.

(** x <= y. *)
Definition ole (x y : ocar O) : Prop := olt O y x = false.
(** Equal as far as the order can tell (e.g. 0.0 and -0.0). *)
Definition oeq (x y : ocar O) : Prop := ole x y /\ ole y x.

(** Vectors and boxes of [n] comparable components. *)
Definition ok_point (n : nat) (p : point O) : Prop := length p = n /\ Forall ok p.
Definition ok_box (n : nat) (b : box O) : Prop := length b = n /\ Forall (fun i => ok (fst i) /\ ok (snd i)) b.
(** A box is valid if its minimum is not above its maximum in any component. *)
Definition valid_box (b : box O) : Prop := Forall (fun i => ole (fst i) (snd i)) b.

(** Membership and inclusion, component by component. *)
Definition in_box (p : point O) (b : box O) : Prop := Forall2 (fun x i => ole (fst i) x /\ ole x (snd i)) p b.
Definition within (b c : box O) : Prop := Forall2 (fun i o => ole (fst o) (fst i) /\ ole (snd i) (snd o)) b c.
Definition box_eq (b c : box O) : Prop := Forall2 (fun i j => oeq (fst i) (fst j) /\ oeq (snd i) (snd j)) b c.

(** Items: well-formed, in the range of the numeric limits, contained in a box. *)
Definition ok_item (n : nat) (i : item O) : Prop := match i with IPoint p => ok_point n p | IBox b => ok_box n b end.
Definition ranged (x : ocar O) : Prop := ole (olow O) x /\ ole x (omax O).
Definition ranged_item (i : item O) : Prop :=
  match i with IPoint p => Forall ranged p | IBox b => Forall (fun i => ranged (fst i) /\ ranged (snd i)) b end.
Definition item_in (i : item O) (b : box O) : Prop := match i with IPoint p => in_box p b | IBox c => within c b end.
End Spec.
