(** * C100: texture coordinates of generated meshes and faces of generated cuboids in double precision *)
From Coq Require Import ZArith Reals List Bool Lia Lra.
From Flocq Require Import Core IEEE754.BinarySingleNaN.
From Verif Require Import Model.Scalar Model.Vec Model.BoxFloat Model.PlaneFloat Model.ClipFloat Model.KeyframeFloat Model.MeshFloat Model.GridFloat Spec.FloatSpec Spec.MeshFloatSpec Spec.GridFloatSpec
  Proofs.PlaneFloatLemmas Proofs.ClipFloatLemmas Proofs.FrustumFloatLemmas Proofs.MeshFloatLemmas Proofs.GridFloatLemmas.
Local Open Scope R_scope.

Lemma slack51 : bpow radix2 (-51) = 4 * u.
Proof. change (-51)%Z with (2 + -53)%Z. rewrite bpow_plus. reflexivity. Qed.
Lemma share_close (n k : Z) : (1 <= n <= 2 ^ 32)%Z -> (0 <= k <= n)%Z -> Rabs (B2R (fshare n k) - IZR k / IZR n) <= 2.1 * u.
Proof. intros N K. apply (share_near n N k K). Qed.
Lemma flip_close (n k : Z) : (1 <= n <= 2 ^ 32)%Z -> (0 <= k <= n)%Z -> in_unit (b64_sub b64_1 (fshare n k)) /\ Rabs (B2R (b64_sub b64_1 (fshare n k)) - (1 - IZR k / IZR n)) <= 3.2 * u.
Proof. intros N K. destruct (flip_unit _ (share_unit n k N K)) as [U E]. split; [exact U|]. pose proof (share_close n k N K) as C. apply Rabs_le_inv in E. apply Rabs_le_inv in C. apply Rabs_le. lra. Qed.

(** The coordinates of a mantle stay in the image, and are at most 2^-51 off. *)
Theorem C100_mantle : forall n m u v, (1 <= n <= 2 ^ 32)%Z -> (1 <= m <= 2 ^ 32)%Z -> (0 <= u <= n)%Z -> (0 <= v <= m)%Z ->
  let t := fmantle_tex n m u v in in_fimage t /\ Rabs (B2R (f2x t) - (1 - IZR u / IZR n)) <= bpow radix2 (-51) /\ Rabs (B2R (f2y t) - IZR v / IZR m) <= bpow radix2 (-51).
Proof.
  intros n m u v N M U V t. rewrite slack51. pose proof v_small as US. split; [split; apply share_unit; auto; lia|]. split.
  - pose proof (share_close n (n - u) N ltac:(lia)) as C. replace (1 - IZR u / IZR n) with (IZR (n - u) / IZR n) by (rewrite minus_IZR; field; apply IZR_neq; lia). cbn [t fmantle_tex f2x]. lra.
  - pose proof (share_close m v M V) as C. cbn [t fmantle_tex f2y]. lra.
Qed.
Print Assumptions C100_mantle.
Example C100_mantle_example : let n := 49%Z in (1 <= n <= 2 ^ 32)%Z /\ in_fimage (fmantle_tex n 7 0 3) /\ B2R (f2x (fmantle_tex n 7 0 3)) < 1.
Proof.
  cbn zeta. split; [lia|]. split; [apply C100_mantle; lia|]. assert (E : f2x (fmantle_tex 49 7 0 3) = @B754_finite 53 1024 false 9007199254740991 (-53) eq_refl) by (apply B2SF_inj; vm_compute; reflexivity). rewrite E. cbn [B2R]. unfold F2R. cbn [Fnum Fexp cond_Zopp]. change (bpow radix2 (-53)) with (/ 9007199254740992). lra.
Qed.

(** No two columns and no two rows share a coordinate: however fine the mesh, they keep their order. *)
Theorem C100_order : forall n m, (1 <= n <= 2 ^ 32)%Z -> (1 <= m <= 2 ^ 32)%Z ->
  (forall u u' v, (0 <= u < u')%Z -> (u' <= n)%Z -> B2R (f2x (fmantle_tex n m u' v)) < B2R (f2x (fmantle_tex n m u v))) /\
  (forall u v v', (0 <= v < v')%Z -> (v' <= m)%Z -> B2R (f2y (fmantle_tex n m u v)) < B2R (f2y (fmantle_tex n m u v'))) /\
  (forall f j j' i, (0 <= j < j')%Z -> (j' <= n)%Z -> B2R (f2x (fgrid_tex f n m j i)) < B2R (f2x (fgrid_tex f n m j' i))) /\
  (forall j i i', (0 <= i < i')%Z -> (i' <= m)%Z -> B2R (f2y (fgrid_tex false n m j i)) < B2R (f2y (fgrid_tex false n m j i'))) /\
  (forall j i i', (0 <= i < i')%Z -> (i' <= m)%Z -> B2R (f2y (fgrid_tex true n m j i')) < B2R (f2y (fgrid_tex true n m j i))).
Proof.
  intros n m N M. split; [|split; [|split; [|split]]]; cbn [fmantle_tex fgrid_tex f2x f2y].
  - intros u u' _ U L. apply share_less; auto; lia.
  - intros _ v v' U L. now apply share_less.
  - intros _ j j' _ U L. now apply share_less.
  - intros _ i i' U L. now apply share_less.
  - intros _ i i' U L. destruct (flip_close m i M ltac:(lia)) as [_ E1]. destruct (flip_close m i' M ltac:(lia)) as [_ E2]. pose proof (gap m M) as G. pose proof (step_share m i i' M U L) as S. pose proof v_small. apply Rabs_le_inv in E1. apply Rabs_le_inv in E2. lra.
Qed.
Print Assumptions C100_order.
Example C100_order_example : B2R (f2x (fmantle_tex (2 ^ 32) 1 (2 ^ 32) 0)) < B2R (f2x (fmantle_tex (2 ^ 32) 1 (2 ^ 32 - 1) 0)).
Proof. apply C100_order; lia. Qed.

(** Bezier patches (flipped or not) and ellipsoids (not flipped) *)
Theorem C100_grid : forall f n m j i, (1 <= n <= 2 ^ 32)%Z -> (1 <= m <= 2 ^ 32)%Z -> (0 <= j <= n)%Z -> (0 <= i <= m)%Z ->
  let t := fgrid_tex f n m j i in in_fimage t /\ Rabs (B2R (f2x t) - IZR j / IZR n) <= bpow radix2 (-51) /\ Rabs (B2R (f2y t) - (if f then 1 - IZR i / IZR m else IZR i / IZR m)) <= bpow radix2 (-51).
Proof.
  intros f n m j i N M J I. cbn zeta. rewrite slack51. pose proof v_small as US. pose proof (share_close n j N J) as CX. pose proof (share_close m i M I) as CY. destruct (flip_close m i M I) as [FU FC].
  destruct f; unfold fgrid_tex; (split; [split; cbn [f2x f2y]; [now apply share_unit|]|cbn [f2x f2y]; split; [lra|]]).
  - exact FU.
  - lra.
  - now apply share_unit.
  - lra.
Qed.
Print Assumptions C100_grid.
Example C100_grid_example : in_fimage (fgrid_tex true 49 49 49 49) /\ B2R (f2y (fgrid_tex true 49 49 49 49)) <> 0.
Proof.
  split; [apply C100_grid; lia|]. assert (E : f2y (fgrid_tex true 49 49 49 49) = @B754_finite 53 1024 false 4503599627370496 (-105) eq_refl) by (apply B2SF_inj; vm_compute; reflexivity). rewrite E. cbn [B2R]. unfold F2R. cbn [Fnum Fexp cond_Zopp]. pose proof (bpow_gt_0 radix2 (-105)). lra.
Qed.

(** Covers stay in the image whenever sine and cosine stay between -1 and 1. *)
Theorem C100_cover : forall fsin fcos, bounded fsin -> bounded fcos -> forall f n c u v, (1 <= n <= 2 ^ 20)%Z -> (1 <= c <= 2 ^ 32)%Z -> (Z.of_nat u <= n)%Z -> (0 <= v <= c)%Z -> in_fimage (fcover_tex fsin fcos f n c u v).
Proof.
  intros fsin fcos BS BC f n c u v N C U V. destruct (angle_exact n ltac:(lia) u U ltac:(lia)) as (FA & _ & BA). destruct (BS _ FA BA) as [FS S]. destruct (BC _ FA BA) as [FC K]. pose proof (share_unit c v C V) as T.
  pose proof (cover_unit _ _ FS S T) as X. pose proof (cover_unit _ _ FC K T) as Y. split; [exact X|]. unfold fcover_tex. cbn [f2y]. destruct f; [exact (proj1 (flip_unit _ Y))|exact Y].
Qed.
Print Assumptions C100_cover.
Example C100_cover_example : bounded (fun _ => b64_1) /\ in_fimage (fcover_tex (fun _ => b64_1) (fun _ => b64_1) true 5 3 2 3).
Proof. assert (B : bounded (fun _ => b64_1)) by (intros x _ _; destruct one_value as [-> F]; split; [exact F|rewrite Rabs_R1; lra]). split; [exact B|]. apply C100_cover; auto; lia. Qed.

(** A face of a cuboid never reaches beyond half the size, its columns keep their order, and each is at most 2^-51 of the size off; texture coordinates as on a flipped grid. *)
Theorem C100_face : forall size n m i, is_finite size = true -> bpow radix2 (-900) <= B2R size <= bpow radix2 1000 -> (1 <= n <= 2 ^ 32)%Z -> (1 <= m <= 2 ^ 32)%Z -> (0 <= i <= m)%Z ->
  (forall j, (0 <= j <= n)%Z -> is_finite (fface_coord size n j) = true /\ Rabs (B2R (fface_coord size n j)) <= B2R size / 2 /\ Rabs (B2R (fface_coord size n j) - (B2R size * (IZR j / IZR n) - B2R size / 2)) <= bpow radix2 (-51) * B2R size) /\
  (forall j j', (0 <= j < j')%Z -> (j' <= n)%Z -> B2R (fface_coord size n j) < B2R (fface_coord size n j')) /\
  B2R (fface_coord size n 0) = - (B2R size / 2) /\
  (forall j, (0 <= j <= n)%Z -> let t := fface_tex n m j i in let g := fgrid_tex true n m j i in in_fimage t /\ B2R (f2x t) = B2R (f2x g) /\ B2R (f2y t) = B2R (f2y g)).
Proof.
  intros size n m i F B N M I. pose proof v_small as US. pose proof (bpow_gt_0 radix2 (-900)) as P9. split; [|split; [|split]].
  - intros j J. destruct (face_near size n F B N j J) as (FC & BC & E & _). split; [exact FC|]. split; [apply Rabs_le; exact BC|]. rewrite slack51. replace (B2R size * (IZR j / IZR n) - B2R size / 2) with (B2R size * (IZR j / IZR n - 1 / 2)) by (unfold Rdiv; ring); lra.
  - intros j j' J L. destruct (face_near size n F B N j ltac:(lia)) as (_ & _ & E & _). destruct (face_near size n F B N j' ltac:(lia)) as (_ & _ & E' & _). pose proof (gap n N) as G. pose proof (step_share n j j' N J L) as S.
    set (h := B2R size) in *. set (q := IZR j / IZR n) in *. set (q' := IZR j' / IZR n) in *. set (w := bpow radix2 (-53)) in *. assert (H0 : 0 < h) by lra. assert (A : h * (q + 2097152 * w) <= h * q') by (apply Rmult_le_compat_l; lra). assert (WH : 0 < w * h) by (apply Rmult_lt_0_compat; lra).
    apply Rabs_le_inv in E. apply Rabs_le_inv in E'. lra.
  - destruct (face_near size n F B N 0 ltac:(lia)) as (_ & _ & _ & _ & E). apply E. apply no_share. exact N.
  - intros j J. cbn zeta. destruct (face_share_value n j N J) as [FX VX]. destruct (face_share_value m i M I) as [FY VY]. destruct (share_unit n j N J) as [_ UX]. destruct (share_unit m i M I) as [SF UY].
    assert (X : in_unit (fface_share n j)) by (split; [exact FX|rewrite VX; exact UX]). assert (Y : in_unit (fface_share m i)) by (split; [exact FY|rewrite VY; exact UY]). split; [split; [exact X|exact (proj1 (flip_unit _ Y))]|]. split; [exact VX|].
    cbn [fface_tex fgrid_tex f2y]. destruct one_value as [V1 F1].
    destruct (sub_fin b64_1 (fface_share m i) 0 F1 FY ltac:(lia)) as [_ ->]; [rewrite V1; change (bpow radix2 0) with 1; destruct Y; apply Rabs_le; lra|]. destruct (sub_fin b64_1 (fshare m i) 0 F1 SF ltac:(lia)) as [_ ->]; [rewrite V1; change (bpow radix2 0) with 1; apply Rabs_le; lra|]. now rewrite VY.
Qed.
Print Assumptions C100_face.
Example C100_face_example : let size := b64_of_Z 3 in is_finite size = true /\ bpow radix2 (-900) <= B2R size <= bpow radix2 1000 /\ B2R (fface_coord size 7 0) = - (3 / 2).
Proof.
  cbn zeta. destruct (b64_integer 3 ltac:(lia)) as [V F]. split; [exact F|]. assert (B : bpow radix2 (-900) <= B2R (b64_of_Z 3) <= bpow radix2 1000). { rewrite V. split; [apply Rle_trans with (bpow radix2 0); [apply bpow_le; lia|change (bpow radix2 0) with 1; lra]|apply Rle_trans with (bpow radix2 2); [change (bpow radix2 2) with 4; lra|apply bpow_le; lia]]. }
  split; [exact B|]. destruct (C100_face (b64_of_Z 3) 7 1 0 F B ltac:(lia) ltac:(lia) ltac:(lia)) as (_ & _ & E & _). rewrite E, V. reflexivity.
Qed.

(** The faces meet: up to 48 segments the last column lies exactly at half the size, and the last texture coordinate is exactly 1. *)
Theorem C100_edges : forall size n, is_finite size = true -> bpow radix2 (-900) <= B2R size <= bpow radix2 1000 -> (1 <= n <= 48)%Z ->
  B2R (fface_coord size n n) = B2R size / 2 /\ B2R (fface_coord size n 0) = - B2R (fface_coord size n n) /\ B2R (f2x (fmantle_tex n 1 0 0)) = 1 /\ B2R (f2x (fmantle_tex n 1 n 0)) = 0.
Proof.
  intros size n F B N. assert (N2 : (1 <= n <= 2 ^ 32)%Z) by lia. destruct (face_near size n F B N2 n ltac:(lia)) as (_ & _ & _ & E1 & _). destruct (face_near size n F B N2 0 ltac:(lia)) as (_ & _ & _ & _ & E0).
  rewrite E1 by (apply whole_share; exact N). rewrite E0 by (apply no_share; exact N2). split; [reflexivity|]. split; [reflexivity|]. cbn [fmantle_tex f2x]. rewrite Z.sub_0_r, Z.sub_diag. split; [apply whole_share; exact N|apply no_share; exact N2].
Qed.
Print Assumptions C100_edges.
Example C100_edges_example : B2R (fface_coord b64_1 48 48) = 1 / 2.
Proof. destruct one_value as [V F]. destruct (C100_edges b64_1 48 F) as [E _]; [|lia|rewrite E, V; reflexivity]. rewrite V. split; [apply Rle_trans with (bpow radix2 0); [apply bpow_le; lia|change (bpow radix2 0) with 1; lra]|apply Rle_trans with (bpow radix2 0); [change (bpow radix2 0) with 1; lra|apply bpow_le; lia]]. Qed.

(** With 49 segments they do not: the last column of a cuboid of size 1 falls short of 1/2, so the face is open along the edge where the next one begins at exactly 1/2 from the center. *)
Theorem C100_edges_refuted : ~ (forall size n, is_finite size = true -> bpow radix2 (-900) <= B2R size <= bpow radix2 1000 -> (1 <= n <= 2 ^ 32)%Z -> B2R (fface_coord size n n) = B2R size / 2).
Proof.
  intros H. destruct one_value as [V F]. specialize (H b64_1 49%Z F). rewrite V in H. assert (L : B2R (fface_coord b64_1 49 49) = 1 / 2).
  { apply H; [|lia]. split; [apply Rle_trans with (bpow radix2 0); [apply bpow_le; lia|change (bpow radix2 0) with 1; lra]|apply Rle_trans with (bpow radix2 0); [change (bpow radix2 0) with 1; lra|apply bpow_le; lia]]. }
  assert (E : fface_coord b64_1 49 49 = @B754_finite 53 1024 false 9007199254740990 (-54) eq_refl) by (apply B2SF_inj; vm_compute; reflexivity). rewrite E in L. cbn [B2R] in L. unfold F2R in L. cbn [Fnum Fexp cond_Zopp] in L. change (bpow radix2 (-54)) with (/ 18014398509481984) in L. lra.
Qed.
Print Assumptions C100_edges_refuted.
