(** Skeletons: include/Geom/Skeleton.h, include/Geom/SkeletonJoint.h, sources/Skeleton.cpp, sources/SkeletonJoint.cpp. *)
From Coq Require Import ZArith List Bool Arith.
Import ListNotations.

(** The transformation matrices (Gs::AffineMatrix4, Gs::Matrix4f): identity, product and inverse.  GaussianLib is not part
    of the repository; the conversion between affine and full matrices and between float types is the identity here. *)
Record mat_ops := mkMat { mat : Type; m1 : mat; mmul : mat -> mat -> mat; minv : mat -> mat }.

Section Skeleton.
Variable G : mat_ops.
Variable X : Type.                     (* vertexWeights and keyframes, SkeletonJoint.h:133-137 *)
Notation M := (mat G).

(** Members of SkeletonJoint, SkeletonJoint.h:109-152.  [jid] is the address of the joint, [jparent] the parent_ pointer. *)
Record jdata := mkJ { jid : Z; jparent : option Z; jtrans : M; jpose : M; jspace : M; jextra : X }.
Inductive joint := Joint (d : jdata) (subs : list joint).
Definition jd (j : joint) : jdata := match j with Joint d _ => d end.
Definition jsubs (j : joint) : list joint := match j with Joint _ l => l end.

Definition set_parent (p : option Z) (j : joint) : joint :=
  match j with Joint d l => Joint (mkJ (jid d) p (jtrans d) (jpose d) (jspace d) (jextra d)) l end.

(** A skeleton is its list of root joints, Skeleton.h:147. *)
Definition forest := list joint.

(** *** Adding and removing *)

(** Skeleton::AddRootJoint, Skeleton.cpp:17-27; [None] is the exception. *)
Definition add_root (f : forest) (j : joint) : option forest :=
  match jparent (jd j) with Some _ => None | None => Some (f ++ [j]) end.

(** SkeletonJoint::AddSubJoint, SkeletonJoint.cpp:23-34; [None] is the exception. *)
Definition add_sub (p j : joint) : option joint :=
  match jparent (jd j) with
  | Some _ => None
  | None => Some (Joint (jd p) (jsubs p ++ [set_parent (Some (jid (jd p))) j]))
  end.

(** Skeleton::RemoveRootJoint (Skeleton.cpp:29-46) and SkeletonJoint::RemoveSubJoint (SkeletonJoint.cpp:36-53), on the
    vector of owners; [None] is a null owner.  The element is erased first (destroying the joint and moving the following
    owners down) and then [*it] is moved from.  By the C++ standard the iterator is already invalid then; modelled is what
    a contiguous vector does: the iterator now denotes the following owner, and reading it behind the last one is
    undefined. *)
Inductive removal :=
| NotFound                                              (* returns nullptr, vector unchanged *)
| Removed (vec : list (option joint)) (res : option joint)
| RemoveUndef.

Fixpoint find_slot (vec : list (option joint)) (a : Z) : option nat :=
  match vec with
  | [] => None
  | Some j :: r => if Z.eqb (jid (jd j)) a then Some O else option_map S (find_slot r a)
  | None :: r => option_map S (find_slot r a)
  end.

Fixpoint erase {A} (l : list A) (i : nat) : list A :=
  match l, i with
  | [], _ => []
  | _ :: r, O => r
  | x :: r, S i' => x :: erase r i'
  end.
Fixpoint set_nth {A} (l : list A) (i : nat) (v : A) : list A :=
  match l, i with
  | [], _ => []
  | _ :: r, O => v :: r
  | x :: r, S i' => x :: set_nth r i' v
  end.

Definition remove_joint (vec : list (option joint)) (a : Z) : removal :=
  match find_slot vec a with
  | None => NotFound
  | Some i =>
      let vec' := erase vec i in
      match nth_error vec' i with
      | None => RemoveUndef
      | Some y => Removed (set_nth vec' i None) y        (* std::move leaves a null owner behind *)
      end
  end.

(** *** Enumeration *)

(** Skeleton::ListJoints and JointList, Skeleton.cpp:48-54 and 239-244. *)
Fixpoint list_joints (j : joint) : list joint :=
  match j with Joint d l => Joint d l :: (fix go l := match l with [] => [] | s :: r => list_joints s ++ go r end) l end.
Definition joint_list (f : forest) : list joint := flat_map list_joints f.

(** The same over a vector of owners; [None] if a null owner is dereferenced (joint->GetSubJoints()). *)
Fixpoint joint_list_slots (v : list (option joint)) : option (list joint) :=
  match v with
  | [] => Some []
  | None :: _ => None
  | Some j :: r => match joint_list_slots r with Some l => Some (list_joints j ++ l) | None => None end
  end.

(** IterateOverJointList and ForEachJoint, Skeleton.cpp:56-76: the calls made to the iteration function. *)
Fixpoint iterate_joint (j : joint) (index : nat) : list (joint * nat) * nat :=
  match j with Joint d l =>
    let r := (fix go l i := match l with
              | [] => ([], i)
              | s :: r => let a := iterate_joint s i in let b := go r (snd a) in (fst a ++ fst b, snd b)
              end) l (S index) in
    ((Joint d l, index) :: fst r, snd r)
  end.
Fixpoint iterate_list (f : forest) (index : nat) : list (joint * nat) * nat :=
  match f with
  | [] => ([], index)
  | s :: r => let a := iterate_joint s index in let b := iterate_list r (snd a) in (fst a ++ fst b, snd b)
  end.
Definition for_each_joint (f : forest) : list (joint * nat) := fst (iterate_list f 0).

(** NumSubJoints and NumJoints, Skeleton.cpp:94-102 and 179-187. *)
Fixpoint num_sub_joints (j : joint) : nat :=
  match j with Joint _ l => (fix go l n := match l with [] => n | s :: r => go r (n + num_sub_joints s) end) l (length l) end.
Definition num_joints (f : forest) : nat := fold_left (fun n j => n + num_sub_joints j) f (length f).

(** *** Transform buffers *)

(** The buffer pointer, as an index into memory, and the counter of written matrices. *)
Record bufst := mkBuf { mem : list M; ptr : nat; written : nat }.

(** [*buffer = m; ++buffer; ++writtenMatrices]; [None] is a write outside of the memory. *)
Definition emit (b : bufst) (m : M) : option bufst :=
  if (ptr b <? length (mem b))%nat then Some (mkBuf (set_nth (mem b) (ptr b) m) (S (ptr b)) (S (written b))) else None.

(** Private Skeleton::FillGlobalTransformBuffer, Skeleton.cpp:189-217 *)
Fixpoint fill_global (j : joint) (parent : M) (b : bufst) (max : nat) (rel : bool) : option bufst :=
  match j with Joint d l =>
    let pm := mmul G parent (jtrans d) in
    match emit b (if rel then mmul G pm (jspace d) else pm) with
    | None => None
    | Some b1 =>
        (fix go l b := match l with
         | [] => Some b
         | s :: r => if (written b <? max)%nat
                     then match fill_global s pm b max rel with Some b' => go r b' | None => None end
                     else Some b
         end) l b1
    end
  end.
Fixpoint fill_global_list (f : forest) (parent : M) (b : bufst) (max : nat) (rel : bool) : option bufst :=
  match f with
  | [] => Some b
  | s :: r => if (written b <? max)%nat
              then match fill_global s parent b max rel with Some b' => fill_global_list r parent b' max rel | None => None end
              else Some b
  end.

(** Private Skeleton::FillLocalTransformBuffer, Skeleton.cpp:219-237 *)
Fixpoint fill_local (j : joint) (b : bufst) (max : nat) : option bufst :=
  match j with Joint d l =>
    match emit b (jtrans d) with
    | None => None
    | Some b1 =>
        (fix go l b := match l with
         | [] => Some b
         | s :: r => if (written b <? max)%nat
                     then match fill_local s b max with Some b' => go r b' | None => None end
                     else Some b
         end) l b1
    end
  end.
Fixpoint fill_local_list (f : forest) (b : bufst) (max : nat) : option bufst :=
  match f with
  | [] => Some b
  | s :: r => if (written b <? max)%nat
              then match fill_local s b max with Some b' => fill_local_list r b' max | None => None end
              else Some b
  end.

(** Public overloads, Skeleton.cpp:104-156.  The buffer is memory in units of matrices of 16 floats ([None]: null
    pointer); it may extend beyond [bufferSize] floats. *)
Inductive fill_result := Throws | Filled (memory : list M) (elements : nat) | WriteOutOfBounds.

Definition fill_buffer (fill : bufst -> nat -> option bufst) (buffer : option (list M)) (bufferSize : nat) : fill_result :=
  match buffer with
  | None => Throws
  | Some memory =>
      if (Nat.modulo bufferSize 16 =? 0)%nat then
        match fill (mkBuf memory 0 0) (Nat.div bufferSize 16) with
        | Some b => Filled (mem b) (written b * 16)
        | None => WriteOutOfBounds
        end
      else Throws
  end.
Definition fill_global_buffer (f : forest) (buffer : option (list M)) (bufferSize : nat) (rel : bool) : fill_result :=
  fill_buffer (fun b max => fill_global_list f (m1 G) b max rel) buffer bufferSize.
Definition fill_local_buffer (f : forest) (buffer : option (list M)) (bufferSize : nat) : fill_result :=
  fill_buffer (fun b max => fill_local_list f b max) buffer bufferSize.

(** SkeletonJoint::GlobalTransform, SkeletonJoint.cpp:55-67: [up] lists the joint, its parent, its grandparent, ... *)
Fixpoint global_transform_onto (up : list joint) (m : M) : M :=
  match up with
  | [] => m
  | j :: parents => mmul G (global_transform_onto parents m) (jtrans (jd j))
  end.
Definition global_transform (up : list joint) : M := global_transform_onto up (m1 G).

(** *** Joint space *)

(** SkeletonJoint::BuildJointSpace, SkeletonJoint.cpp:74-83; Skeleton::BuildJointSpace, Skeleton.cpp:78-84. *)
Fixpoint build_joint_space (parent : M) (j : joint) : joint :=
  match j with Joint d l =>
    let pm := mmul G parent (jpose d) in
    Joint (mkJ (jid d) (jparent d) (jtrans d) (jpose d) (minv G pm) (jextra d)) (map (build_joint_space pm) l)
  end.
Definition build_space (f : forest) : forest := map (build_joint_space (m1 G)) f.

(** SkeletonJoint::RebuildPoseTransforms, SkeletonJoint.cpp:85-94; Skeleton.cpp:86-92. *)
Fixpoint rebuild_pose (parent : M) (j : joint) : joint :=
  match j with Joint d l =>
    let p := mmul G (minv G parent) (minv G (jspace d)) in
    let pm := mmul G parent p in
    Joint (mkJ (jid d) (jparent d) (jtrans d) p (jspace d) (jextra d)) (map (rebuild_pose pm) l)
  end.
Definition rebuild_poses (f : forest) : forest := map (rebuild_pose (m1 G)) f.

(** *** Copying *)

(** CopyJoint, Skeleton.cpp:246-261.  [a] is the next free address.  [lhs] is the joint at address [self], freshly made by the default
    joint creator (Skeleton.cpp:162) and thus without sub-joints; all of its properties are overwritten. *)
Fixpoint copy_joint (self : Z) (par : option Z) (rhs : joint) (a : Z) : joint * Z :=
  match rhs with Joint d l =>
    let r := (fix go l a := match l with
              | [] => ([], a)
              | s :: r => let x := copy_joint a (Some self) s (a + 1)%Z in let y := go r (snd x) in (fst x :: fst y, snd y)
              end) l a in
    (Joint (mkJ self par (jtrans d) (jpose d) (jspace d) (jextra d)) (fst r), snd r)
  end.

(** Skeleton::CopyFrom with the default creator, Skeleton.cpp:158-172; the model skeleton is a different object. *)
Fixpoint copy_list (f : forest) (a : Z) : forest * Z :=
  match f with
  | [] => ([], a)
  | s :: r => let x := copy_joint a None s (a + 1)%Z in let y := copy_list r (snd x) in (fst x :: fst y, snd y)
  end.
Definition copy_from (f model : forest) (a : Z) : forest * Z :=
  let r := copy_list model a in (f ++ fst r, snd r).
End Skeleton.
Arguments Joint {G X}. Arguments mkJ {G X}. Arguments jid {G X}. Arguments jparent {G X}. Arguments jtrans {G X}.
Arguments jpose {G X}. Arguments jspace {G X}. Arguments jextra {G X}. Arguments jd {G X}. Arguments jsubs {G X}.
Arguments NotFound {G X}. Arguments Removed {G X}. Arguments RemoveUndef {G X}.
Arguments mkBuf {G}. Arguments mem {G}. Arguments ptr {G}. Arguments written {G}.
Arguments Throws {G}. Arguments Filled {G}. Arguments WriteOutOfBounds {G}.
