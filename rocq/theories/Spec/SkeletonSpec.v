(** Positions in a forest of joints and what is found along the way to them. *)
From Coq Require Import ZArith List Bool Sorted.
From Verif Require Import Model.Skeleton. (* types [mat_ops], [joint] and their fields only *)
Import ListNotations.

(** A position: which root, which child of it, and so on.  [lookup] is undefined on the empty position. *)
Definition path := list nat.

Section Spec.
Context {G : mat_ops} {X : Type}.
Notation joint := (joint G X).

Fixpoint lookup (f : list joint) (p : path) {struct p} : option joint :=
  match p with
  | [] => None
  | i :: q => match nth_error f i with
              | None => None
              | Some j => match q with [] => Some j | _ => lookup (jsubs j) q end
              end
  end.

(** The joints on the way to a position, root first. *)
Fixpoint way (f : list joint) (p : path) {struct p} : list joint :=
  match p with
  | [] => []
  | i :: q => match nth_error f i with None => [] | Some j => j :: way (jsubs j) q end
  end.

(** Product of the transforms on the way, root leftmost. *)
Definition product (sel : joint -> mat G) (w : list joint) : mat G := fold_left (fun m j => mmul G m (sel j)) w (m1 G).

(** Preorder: ancestors first, then siblings from left to right. *)
Inductive before : path -> path -> Prop :=
| before_ancestor p : p <> [] -> before [] p
| before_sibling i j p q : (i < j)%nat -> before (i :: p) (j :: q)
| before_same i p q : before p q -> before (i :: p) (i :: q).

(** [ps] enumerates all positions of the forest in preorder, each once. *)
Definition preorder (f : list joint) (ps : list path) : Prop :=
  StronglySorted before ps /\ (forall p, In p ps <-> lookup f p <> None).

(** Equal up to addresses. *)
Inductive same_shape : joint -> joint -> Prop :=
| same_joint d d' l l' : jtrans d = jtrans d' -> jpose d = jpose d' -> jspace d = jspace d' -> jextra d = jextra d' ->
    Forall2 same_shape l l' -> same_shape (Joint d l) (Joint d' l').

(** Every sub-joint knows its parent. *)
Inductive parents_ok : option Z -> joint -> Prop :=
| parents_joint p d l : jparent d = p -> Forall (parents_ok (Some (jid d))) l -> parents_ok p (Joint d l).
End Spec.

(** Laws of matrix multiplication; inverses of invertible matrices only. *)
Definition invertible (G : mat_ops) (a : mat G) : Prop := exists b, mmul G a b = m1 G /\ mmul G b a = m1 G.
Record mat_laws (G : mat_ops) : Prop := mkLaws {
  ml_assoc : forall a b c, mmul G a (mmul G b c) = mmul G (mmul G a b) c;
  ml_1l : forall a, mmul G (m1 G) a = a;
  ml_1r : forall a, mmul G a (m1 G) = a;
  ml_inv : forall a, invertible G a -> mmul G a (minv G a) = m1 G /\ mmul G (minv G a) a = m1 G }.
