(** The lanes of include/Geom/VectorizedAABB.h read as C++ [float]s, and the operations of include/Geom/AABB.h on these. *)
From Coq Require Import ZArith NArith List.
From Flocq Require Import IEEE754.BinarySingleNaN.
From Flocq Require IEEE754.Binary IEEE754.Bits.
From Verif Require Import Model.Aabb Model.VecAabb.
Import ListNotations.

(** The float a pattern stands for, and the pattern of a float. *)
Definition float_of (a : N) : Bits.binary32 := Bits.b32_of_bits (Z.of_N a).
Definition pattern (x : Bits.binary32) : N := Z.to_N (Bits.bits_of_b32 x).

(** The comparison of 32-bit patterns read as IEEE binary32 numbers. *)
Definition cmp32 (a b : N) : option comparison := Bits.b32_compare (float_of a) (float_of b).
Definition lt32 (a b : N) : bool := match cmp32 a b with Some Lt => true | _ => false end.
Definition le32 (a b : N) : bool := match cmp32 a b with Some Lt | Some Eq => true | _ => false end.
Definition F32Order : order := mkOrder N lt32 2139095039%N 4286578687%N.
Definition f0 : N := 0. Definition f_half : N := 1056964608. Definition f1 : N := 1065353216. Definition f2 : N := 1073741824.
Definition f_nan : N := 2143289344.

(** _mm_sub_ps, _mm_add_ps, _mm_mul_ps: the operations of float, rounding to nearest. *)
Definition sub_ps (a b : N) : N := pattern (Bits.b32_minus mode_NE (float_of a) (float_of b)).
Definition add_ps (a b : N) : N := pattern (Bits.b32_plus mode_NE (float_of a) (float_of b)).
Definition mul_ps (a b : N) : N := pattern (Bits.b32_mult mode_NE (float_of a) (float_of b)).

(** VectorizedAABB.h:50-54, Reset *)
Definition v_reset (n : nat) : vbox := repeat (2139095039%N, 4286578687%N) n.
(** VectorizedAABB.h:104-120, Widths, Heights, Depths *)
Definition v_sizes (b : vbox) : vpoint := map (fun i => sub_ps (snd i) (fst i)) b.
(** VectorizedAABB.h:122-138, CentersX, CentersY, CentersZ *)
Definition v_centers (b : vbox) : vpoint := map (fun i => mul_ps (add_ps (fst i) (snd i)) f_half) b.

(** AABB.h 98-106, Size of an AABB3f *)
Definition size32 (b : vbox) : vpoint := map (fun i => pattern (Bits.b32_abs (Bits.b32_minus mode_NE (float_of (snd i)) (float_of (fst i))))) b.
(** AABB.h 108-116, Center *)
Definition center32 (b : vbox) : vpoint := map (fun i => pattern (Bits.b32_div mode_NE (Bits.b32_plus mode_NE (float_of (fst i)) (float_of (snd i))) (float_of f2))) b.
