(** Center and size of an axis-aligned box in C++ [double]. *)
From Coq Require Import ZArith List.
From Flocq Require Import IEEE754.BinarySingleNaN.
From Verif Require Import Model.Scalar.
Import ListNotations.

(** The operator / of double *)
Definition b64_div : b64 -> b64 -> b64 := @Bdiv 53%Z 1024%Z b64_prec_gt_0 b64_prec_lt_emax mode_NE.

(** AABB.h 108-116, Center; a box is the list of its pairs (min[i], max[i]). *)
Definition center64 (b : list (b64 * b64)) : list b64 := map (fun i => b64_div (b64_add (fst i) (snd i)) (b64_of_Z 2)) b.
(** AABB.h 98-106, Size *)
Definition size64 (b : list (b64 * b64)) : list b64 := map (fun i => Babs (b64_sub (snd i) (fst i))) b.
