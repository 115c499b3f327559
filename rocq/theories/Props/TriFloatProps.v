(** * C97: rays against triangles in double precision *)
From Coq Require Import ZArith Reals List Bool Lia Lra.
From Flocq Require Import Core IEEE754.BinarySingleNaN.
From Verif Require Import Model.Scalar Model.Vec Model.BoxFloat Model.Plane Model.Tri Model.PlaneFloat Model.ClipFloat Model.TriFloat
  Spec.InterpSpec Spec.ClipSpec Spec.PlaneSpec Spec.CollSpec Spec.TriSpec Spec.FloatSpec Spec.FrustumFloatSpec Spec.TriFloatSpec
  Proofs.VecLemmas Proofs.TriLemmas Proofs.TriHit Proofs.PlaneFloatLemmas Proofs.FrustumFloatLemmas Proofs.TriFloatLemmas.
Local Open Scope R_scope.

Lemma apart x e k : Rabs (x - e) <= k -> e - k <= x <= e + k.
Proof. intros H. apply Rabs_le_inv in H. lra. Qed.
Lemma above_facing t x : above t x = facing t x - facing t (pa t).
Proof. unfold above, facing, dot, vsub. cbn. ring. Qed.

(** A ray that passes all three edges on the inner side, enters through the front and starts in front of the triangle, all by more than the slack, is reported to hit. *)
Theorem C97_sure_hit : forall t r, mild_tri t -> mild_ray r -> let T := exact_tri t in let Y := exact_ray r in
  edge_unsure Y (pa T) (pb T) <= beside Y (pa T) (pb T) -> edge_unsure Y (pb T) (pc T) <= beside Y (pb T) (pc T) -> edge_unsure Y (pc T) (pa T) <= beside Y (pc T) (pa T) ->
  facing T (rdirection Y) < - face_unsure T (rdirection Y) -> face_unsure T (rorigin Y) + face_unsure T (pa T) < above T (rorigin Y) ->
  exists w, fhit_barycentric t r = Some w.
Proof.
  intros t r MT MR T Y HAB HBC HCA HF HO. exists (scaled_weights t r). apply hit_iff; [exact MT|exact MR|]. split; [|reflexivity].
  destruct (weight_a_close t r MT MR) as (_ & _ & EA). destruct (weight_b_close t r MT MR) as (_ & _ & EB). destruct (weight_c_close t r MT MR) as (_ & _ & EC). destruct (facing_close t r MT MR) as (_ & EF).
  destruct (height_close t MT (frorigin r) (proj1 MR)) as (_ & EO). destruct (height_close t MT (fta t) (proj1 MT)) as (_ & ET). fold T Y in EA, EB, EC, EF, EO, ET.
  change (exact_vec (frorigin r)) with (rorigin Y) in EO. change (exact_vec (fta t)) with (pa T) in ET. rewrite above_facing in HO.
  apply apart in EA, EB, EC, EF, EO, ET. unfold tests. repeat split; lra.
Qed.
Print Assumptions C97_sure_hit.

(** And a reported hit is one up to the slack. *)
Theorem C97_reported : forall t r w, mild_tri t -> mild_ray r -> fhit_barycentric t r = Some w -> let T := exact_tri t in let Y := exact_ray r in
  - edge_unsure Y (pa T) (pb T) <= beside Y (pa T) (pb T) /\ - edge_unsure Y (pb T) (pc T) <= beside Y (pb T) (pc T) /\ - edge_unsure Y (pc T) (pa T) <= beside Y (pc T) (pa T) /\
  facing T (rdirection Y) < face_unsure T (rdirection Y) /\ - (face_unsure T (rorigin Y) + face_unsure T (pa T)) < above T (rorigin Y).
Proof.
  intros t r w MT MR H T Y. apply hit_iff in H; [|exact MT|exact MR]. destruct H as [(HA & HB & HC & HF & HO) _].
  destruct (weight_a_close t r MT MR) as (_ & _ & EA). destruct (weight_b_close t r MT MR) as (_ & _ & EB). destruct (weight_c_close t r MT MR) as (_ & _ & EC). destruct (facing_close t r MT MR) as (_ & EF).
  destruct (height_close t MT (frorigin r) (proj1 MR)) as (_ & EO). destruct (height_close t MT (fta t) (proj1 MT)) as (_ & ET). fold T Y in EA, EB, EC, EF, EO, ET.
  change (exact_vec (frorigin r)) with (rorigin Y) in EO. change (exact_vec (fta t)) with (pa T) in ET. rewrite above_facing.
  apply apart in EA, EB, EC, EF, EO, ET. repeat split; lra.
Qed.
Print Assumptions C97_reported.

(** The coordinates that are reported with a hit, if they are numbers at all: none is negative, and their sum is 1 up to one part in 2^50. *)
Lemma mul_finite (x k : b64) : is_finite (b64_mul x k) = true -> is_finite k = true.
Proof. destruct x as [sx|sx| |sx mx ex Hx], k as [sk|sk| |sk mk ek Hk]; intros H; try reflexivity; discriminate H. Qed.
Theorem C97_coordinates : forall t r w, mild_tri t -> mild_ray r -> fhit_barycentric t r = Some w -> is_finite (fx w) = true \/ is_finite (fy w) = true \/ is_finite (fz w) = true ->
  is_finite (fx w) = true /\ is_finite (fy w) = true /\ is_finite (fz w) = true /\
  0 <= B2R (fx w) /\ 0 <= B2R (fy w) /\ 0 <= B2R (fz w) /\ Rabs (B2R (fx w) + B2R (fy w) + B2R (fz w) - 1) <= bpow radix2 (-50).
Proof.
  intros t r w MT MR H N. apply hit_iff in H; [|exact MT|exact MR]. destruct H as [(HA & HB & HC & _) ->].
  destruct (weight_a_close t r MT MR) as (FA & BA & _). destruct (weight_b_close t r MT MR) as (FB & BB & _). destruct (weight_c_close t r MT MR) as (FC & BC & _).
  apply Rabs_le_inv in BA. apply Rabs_le_inv in BB. apply Rabs_le_inv in BC.
  unfold scaled_weights in *. cbv zeta in *. cbn [fx fy fz] in *.
  assert (K : is_finite (b64_div b64_1 (b64_add (b64_add (fweight_a t r) (fweight_b t r)) (fweight_c t r))) = true) by (destruct N as [N|[N|N]]; apply mul_finite in N; exact N).
  destruct (coordinates_sum _ _ _ FA FB FC ltac:(lra) ltac:(lra) ltac:(lra) K) as (X & Y & Z & S & GX & GY & GZ & _). tauto.
Qed.
Print Assumptions C97_coordinates.

(** They are the exact ones, which are the shares of the three edges in the whole, up to the slack. *)
Lemma shares T Y : beside Y (pa T) (pb T) + beside Y (pb T) (pc T) + beside Y (pc T) (pa T) = - facing T (rdirection Y).
Proof. unfold beside, facing, dot, cross, vsub. cbn. ring. Qed.
Theorem C97_accuracy : forall t r w, mild_tri t -> mild_ray r -> fhit_barycentric t r = Some w -> is_finite (fx w) = true ->
  let T := exact_tri t in let Y := exact_ray r in let whole := - facing T (rdirection Y) in
  let k := bpow radix2 (-50) * whole + 4 * (edge_unsure Y (pa T) (pb T) + edge_unsure Y (pb T) (pc T) + edge_unsure Y (pc T) (pa T)) in
  Rabs (B2R (fx w) * whole - beside Y (pb T) (pc T)) <= k /\ Rabs (B2R (fy w) * whole - beside Y (pc T) (pa T)) <= k /\ Rabs (B2R (fz w) * whole - beside Y (pa T) (pb T)) <= k.
Proof.
  intros t r w MT MR H N T Y whole k. apply hit_iff in H; [|exact MT|exact MR]. destruct H as [(HA & HB & HC & _) ->].
  destruct (weight_a_close t r MT MR) as (FA & BA & EA). destruct (weight_b_close t r MT MR) as (FB & BB & EB). destruct (weight_c_close t r MT MR) as (FC & BC & EC).
  apply Rabs_le_inv in BA. apply Rabs_le_inv in BB. apply Rabs_le_inv in BC. fold T Y in EA, EB, EC. apply apart in EA, EB, EC.
  unfold scaled_weights in *. cbv zeta in *. cbn [fx fy fz] in *. apply mul_finite in N.
  destruct (coordinates_sum _ _ _ FA FB FC ltac:(lra) ltac:(lra) ltac:(lra) N) as (PX & PY & PZ & S & _ & _ & _ & SX & SY & SZ). cbv zeta in SX, SY, SZ.
  pose proof (shares T Y) as W. fold whole in W. apply Rabs_le_inv in S. apply Rabs_le_inv in SX. apply Rabs_le_inv in SY. apply Rabs_le_inv in SZ.
  set (g := b64_div _ _) in *. set (x := B2R (b64_mul (fweight_a t r) g)) in *. set (y := B2R (b64_mul (fweight_b t r) g)) in *. set (z := B2R (b64_mul (fweight_c t r) g)) in *.
  set (s := B2R (fweight_a t r) + B2R (fweight_b t r) + B2R (fweight_c t r)) in *. set (U := edge_unsure Y (pa T) (pb T) + edge_unsure Y (pb T) (pc T) + edge_unsure Y (pc T) (pa T)) in *.
  assert (E50 : 0 < bpow radix2 (-50) <= / 1024) by (split; [apply bpow_gt_0|change (/ 1024) with (bpow radix2 (-10)); apply bpow_le; lia]).
  pose proof (unsure_pos (vsub (pa T) (rorigin Y)) (rdirection Y) (vsub (pb T) (rorigin Y))) as U1. pose proof (unsure_pos (vsub (pb T) (rorigin Y)) (rdirection Y) (vsub (pc T) (rorigin Y))) as U2. pose proof (unsure_pos (vsub (pc T) (rorigin Y)) (rdirection Y) (vsub (pa T) (rorigin Y))) as U3.
  fold (edge_unsure Y (pa T) (pb T)) in U1. fold (edge_unsure Y (pb T) (pc T)) in U2. fold (edge_unsure Y (pc T) (pa T)) in U3.
  assert (D : - U <= whole - s <= U) by (unfold s, U; lra). assert (B : bpow radix2 (-50) * s <= bpow radix2 (-50) * (whole + U)) by (apply Rmult_le_compat_l; lra). assert (B' : bpow radix2 (-50) * U <= / 1024 * U) by (apply Rmult_le_compat_r; unfold U; lra).
  assert (K : forall c v b e, 0 <= c <= 2 -> - (bpow radix2 (-50) * s) <= c * s - v <= bpow radix2 (-50) * s -> b - e <= v <= b + e -> e <= U -> Rabs (c * whole - b) <= k).
  { intros c v b e C1 C2 C3 C4. assert (- (2 * U) <= c * (whole - s) <= 2 * U). { assert (0 <= U) by (unfold U; lra). assert (c * U <= 2 * U) by (apply Rmult_le_compat_r; lra). assert (c * - U <= c * (whole - s)) by (apply Rmult_le_compat_l; lra). assert (c * (whole - s) <= c * U) by (apply Rmult_le_compat_l; lra). lra. }
    unfold k. apply Rabs_le. lra. }
  split; [apply (K x _ _ _ ltac:(lra) SX EA); unfold U; lra|split; [apply (K y _ _ _ ltac:(lra) SY EB); unfold U; lra|apply (K z _ _ _ ltac:(lra) SZ EC); unfold U; lra]].
Qed.
Print Assumptions C97_accuracy.

(** Two triangles of a surface that share an edge from [p] to [q]. If it is the last edge of one triangle, and the first or second one of the other, a ray that
    hits both up to this edge cannot slip between them, on whatever side of the edge it passes: its distances from the edge are computed with opposite signs. *)
Lemma opposite (x : b64) : is_finite x = true -> 0 <= B2R x \/ 0 <= B2R (Bopp x).
Proof. intros _. rewrite B2R_Bopp. lra. Qed.
Theorem C97_no_leak : forall t1 t2 r, mild_tri t1 -> mild_tri t2 -> mild_ray r -> let T1 := exact_tri t1 in let T2 := exact_tri t2 in let Y := exact_ray r in
  sure_face T1 Y -> sure_face T2 Y -> sure_edge Y (pa T2) (pb T2) -> sure_edge Y (pb T2) (pc T2) ->
  (fta t1 = fta t2 /\ ftb t1 = ftc t2 /\ sure_edge Y (pb T1) (pc T1) /\ sure_edge Y (pc T1) (pa T1)) \/
  (ftb t1 = fta t2 /\ ftc t1 = ftc t2 /\ sure_edge Y (pa T1) (pb T1) /\ sure_edge Y (pc T1) (pa T1)) ->
  fhit_barycentric t1 r <> None \/ fhit_barycentric t2 r <> None.
Proof.
  assert (K : forall t r, mild_tri t -> mild_ray r -> sure_face (exact_tri t) (exact_ray r) -> 0 <= B2R (fweight_a t r) -> 0 <= B2R (fweight_b t r) -> 0 <= B2R (fweight_c t r) -> fhit_barycentric t r <> None).
  { intros t r MT MR [SF SO] A B C. destruct (facing_close t r MT MR) as (_ & EF). destruct (height_close t MT (frorigin r) (proj1 MR)) as (_ & EO). destruct (height_close t MT (fta t) (proj1 MT)) as (_ & ET).
    rewrite above_facing in SO. change (rorigin (exact_ray r)) with (exact_vec (frorigin r)) in *. change (pa (exact_tri t)) with (exact_vec (fta t)) in *. apply apart in EF, EO, ET.
    assert (H : fhit_barycentric t r = Some (scaled_weights t r)) by (apply hit_iff; [exact MT|exact MR|]; split; [unfold tests; repeat split; lra|reflexivity]). rewrite H. discriminate. }
  intros t1 t2 r M1 M2 MR T1 T2 Y S1 S2 EAB EBC H. unfold sure_edge in *.
  destruct (weight_a_close t1 r M1 MR) as (FA1 & _ & A1). destruct (weight_b_close t1 r M1 MR) as (_ & _ & B1). destruct (weight_c_close t1 r M1 MR) as (FC1 & _ & C1).
  destruct (weight_a_close t2 r M2 MR) as (_ & _ & A2). destruct (weight_c_close t2 r M2 MR) as (_ & _ & C2).
  fold T1 T2 Y in A1, B1, C1, A2, C2. apply apart in A1, B1, C1, A2, C2. pose proof (K t1 r M1 MR S1) as K1. pose proof (K t2 r M2 MR S2) as K2.
  destruct H as [(EA & EB & E1 & E2)|(EB & EC & E1 & E2)].
  - assert (Q : fweight_b t2 r = Bopp (fweight_c t1 r)) by (unfold fweight_b, fweight_c; now rewrite EA, EB). rewrite Q in K2.
    destruct (opposite (fweight_c t1 r) FC1) as [P|P]; [left; apply K1; lra|right; apply K2; [lra|exact P|lra]].
  - assert (Q : fweight_b t2 r = Bopp (fweight_a t1 r)) by (unfold fweight_b, fweight_a; now rewrite EB, EC). rewrite Q in K2.
    destruct (opposite (fweight_a t1 r) FA1) as [P|P]; [left; apply K1; lra|right; apply K2; [lra|exact P|lra]].
Qed.
Print Assumptions C97_no_leak.

(** Integers *)
Definition int_vec (a b c : Z) : fvec := FV (b64_of_Z a) (b64_of_Z b) (b64_of_Z c).
Lemma int_vec_exact a b c : (Z.abs a <= 2 ^ 53)%Z -> (Z.abs b <= 2 ^ 53)%Z -> (Z.abs c <= 2 ^ 53)%Z -> exact_vec (int_vec a b c) = V3 (IZR a) (IZR b) (IZR c) /\ mild_vec (int_vec a b c).
Proof.
  intros A B C. assert (K : forall z, (Z.abs z <= 2 ^ 53)%Z -> B2R (b64_of_Z z) = IZR z /\ mild (b64_of_Z z)).
  { intros z Z. destruct (b64_integer z Z) as [V F]. split; [exact V|]. split; [exact F|]. rewrite V, <- abs_IZR. apply Rle_trans with (bpow radix2 53); [|apply bpow_le; lia]. change (bpow radix2 53) with (IZR (2 ^ 53)). apply IZR_le. exact Z. }
  destruct (K a A) as [Va Ma]. destruct (K b B) as [Vb Mb]. destruct (K c C) as [Vc Mc]. split; [unfold exact_vec, int_vec; cbn [fx fy fz]; now rewrite Va, Vb, Vc|split; [exact Ma|split; [exact Mb|exact Mc]]].
Qed.
Ltac int_exact := rewrite ?(fun a b c A B C => proj1 (int_vec_exact a b c A B C)) by lia.
Ltac int_mild := first [split; [apply int_vec_exact; lia|split; apply int_vec_exact; lia]|split; apply int_vec_exact; lia].
Lemma bpow49 : 0 < bpow radix2 (-49) <= / 562949953421312.
Proof. split; [apply bpow_gt_0|]. right. change (bpow radix2 (-49)) with (/ IZR (2 ^ 49)). f_equal. Qed.
Lemma bpow700 : 0 < bpow radix2 (-700) <= / 2.
Proof. split; [apply bpow_gt_0|]. change (/ 2) with (bpow radix2 (-1)). apply bpow_le. lia. Qed.
Lemma unsure_le a b c : unsure a b c <= / 562949953421312 * size a b c + / 2.
Proof.
  unfold unsure. pose proof bpow49. pose proof bpow700.
  assert (bpow radix2 (-49) * size a b c <= / 562949953421312 * size a b c) by (apply Rmult_le_compat_r; [unfold size; repeat apply Rplus_le_le_0_compat; apply Rabs_pos|lra]). lra.
Qed.

(** The ray from (2, 3, 7) through (1, 1, 0) hits the triangle (0, 0, 0), (4, 0, 0), (0, 4, 0), by more than the slack. *)
Definition floor : ftri := mkFTri (int_vec 0 0 0) (int_vec 4 0 0) (int_vec 0 4 0).
Definition down : fray := mkFRay (int_vec 2 3 7) (int_vec (-1) (-2) (-7)).
Ltac bounded := repeat match goal with |- context [unsure ?a ?b ?c] => let H := fresh in pose proof (unsure_le a b c) as H; revert H; generalize (unsure a b c); unfold size; cbn [vx vy vz]; intros ? H;
    repeat match type of H with context [Rabs ?x] => first [rewrite (Rabs_pos_eq x) in H by lra|rewrite (Rabs_left x) in H by lra] end end; lra.
Ltac edge := unfold sure_face, sure_edge, edge_unsure, beside, face_unsure, facing, above, exact_ray, exact_tri; cbn [rorigin rdirection pa pb pc frorigin frdirection fta ftb ftc]; int_exact; unfold vsub, dot, cross; cbn [vx vy vz].
Example C97_example : mild_tri floor /\ mild_ray down /\ sure_face (exact_tri floor) (exact_ray down) /\
  sure_edge (exact_ray down) (V3 0 0 0) (V3 4 0 0) /\ sure_edge (exact_ray down) (V3 4 0 0) (V3 0 4 0) /\ sure_edge (exact_ray down) (V3 0 4 0) (V3 0 0 0) /\
  exact_tri floor = mkTri (V3 0 0 0) (V3 4 0 0) (V3 0 4 0) /\ (exists w, fhit_barycentric floor down = Some w /\ is_finite (fx w) = true).
Proof.
  split; [int_mild|]. split; [int_mild|]. split; [unfold floor, down; edge; split; bounded|].
  split; [unfold down; edge; bounded|]. split; [unfold down; edge; bounded|]. split; [unfold down; edge; bounded|]. split; [unfold exact_tri, floor; cbn [fta ftb ftc]; int_exact; reflexivity|].
  assert (H : match fhit_barycentric floor down with Some w => is_finite (fx w) | None => false end = true) by (vm_compute; reflexivity).
  destruct (fhit_barycentric floor down) as [w|]; [exists w; split; [reflexivity|exact H]|discriminate].
Qed.

(** If the shared edge is the second one of both triangles, as it may be, the signs are not opposite, and there are gaps: the ray passes through a point inside the common edge, hits both triangles,
    and is far from the other edges; it is reported to miss both. *)
Definition left_side : ftri := mkFTri (int_vec 357 (-391) 0) (int_vec 172 (-188) 0) (int_vec (-12) (-164) 0).
Definition right_side : ftri := mkFTri (int_vec (-259) (-55) 0) (int_vec (-12) (-164) 0) (int_vec 172 (-188) 0).
Definition between : fray := mkFRay (int_vec (-404023176) 314993930 590117031) (int_vec 404023210 (-314994100) (-590117031)).
Theorem C97_leak_refuted : exists t1 t2 r, mild_tri t1 /\ mild_tri t2 /\ mild_ray r /\ ftb t1 = ftc t2 /\ ftc t1 = ftb t2 /\
  let T1 := exact_tri t1 in let T2 := exact_tri t2 in let Y := exact_ray r in
  sure_face T1 Y /\ sure_face T2 Y /\ sure_edge Y (pa T1) (pb T1) /\ sure_edge Y (pc T1) (pa T1) /\ sure_edge Y (pa T2) (pb T2) /\ sure_edge Y (pc T2) (pa T2) /\
  hit_barycentric T1 Y = Some (V3 0 (1/4) (3/4)) /\ hit_barycentric T2 Y = Some (V3 0 (3/4) (1/4)) /\
  fhit_barycentric t1 r = None /\ fhit_barycentric t2 r = None.
Proof.
  exists left_side, right_side, between. split; [int_mild|]. split; [int_mild|]. split; [int_mild|]. split; [reflexivity|]. split; [reflexivity|]. cbv zeta.
  split; [unfold left_side, between; edge; split; bounded|]. split; [unfold right_side, between; edge; split; bounded|].
  split; [unfold left_side, between; edge; bounded|]. split; [unfold left_side, between; edge; bounded|]. split; [unfold right_side, between; edge; bounded|]. split; [unfold right_side, between; edge; bounded|].
  split; [|split; [|split; vm_compute; reflexivity]].
  all: apply hit_barycentric_spec; unfold left_side, right_side, between; edge; split; [lra|]; split; [unfold bary; cbn [vx vy vz]; lra|]; exists 1; split; [lra|].
  all: unfold ray_at, combine3; cbn [vx vy vz rorigin rdirection pa pb pc]; vunfold; apply vec3_ext; cbn [vx vy vz]; lra.
Qed.
Print Assumptions C97_leak_refuted.

(** Very far away, a ray that misses the triangle can be reported to hit it, at coordinates that are not numbers. *)
Lemma far_value : B2R (b64_of_Z (2 ^ 60)) = bpow radix2 60 /\ is_finite (b64_of_Z (2 ^ 60)) = true.
Proof.
  assert (C := binary_normalize_correct 53 1024 b64_prec_gt_0 b64_prec_lt_emax mode_NE (2 ^ 60) 0 false). cbv zeta in C. change (SpecFloat.fexp 53 1024) with f64 in C. cbn [round_mode] in C.
  replace (F2R (Float radix2 (2 ^ 60) 0)) with (bpow radix2 60) in C by (unfold F2R; cbn [Fnum Fexp]; change (bpow radix2 0) with 1; change (bpow radix2 60) with (IZR (2 ^ 60)); ring).
  rewrite (round_generic radix2 f64 ZnearestE) in C by (apply generic_format_FLT_bpow; [reflexivity|lia]).
  rewrite Rlt_bool_true in C by (rewrite Rabs_pos_eq by apply bpow_ge_0; apply bpow_lt; lia). unfold b64_of_Z. tauto.
Qed.
Definition far : fray := mkFRay (FV (b64_of_Z (2 ^ 60)) (b64_of_Z 0) (b64_of_Z (2 ^ 60))) (int_vec (-1) 0 (-1)).
Definition aside : ftri := mkFTri (int_vec 5 5 0) (int_vec 6 5 0) (int_vec 5 6 0).
Theorem C97_nan_refuted : exists t r w, mild_tri t /\ mild_ray r /\ hit_barycentric (exact_tri t) (exact_ray r) = None /\
  fhit_barycentric t r = Some w /\ is_finite (fx w) = false /\ is_finite (fy w) = false /\ is_finite (fz w) = false.
Proof.
  assert (H : match fhit_barycentric aside far with Some w => negb (is_finite (fx w)) && negb (is_finite (fy w)) && negb (is_finite (fz w)) | None => false end = true) by (vm_compute; reflexivity).
  destruct (fhit_barycentric aside far) as [w|] eqn:W; [|discriminate]. apply andb_prop in H. destruct H as [H HZ]. apply andb_prop in H. destruct H as [HX HY]. apply negb_true_iff in HX, HY, HZ.
  exists aside, far, w. destruct far_value as [V F]. assert (MF : mild (b64_of_Z (2 ^ 60))) by (split; [exact F|rewrite V, Rabs_pos_eq by apply bpow_ge_0; apply bpow_le; lia]).
  split; [int_mild|]. split; [split; [split; [exact MF|split; [apply (int_vec_exact 0 0 0); lia|exact MF]]|apply int_vec_exact; lia]|].
  split; [|split; [exact W|split; [exact HX|split; [exact HY|exact HZ]]]].
  clear w W HX HY HZ. destruct (hit_barycentric _ _) as [w|] eqn:E; [|reflexivity]. exfalso. apply hit_barycentric_spec in E. destruct E as (_ & (P & Q & S & N) & s & _ & E).
  apply (f_equal vy) in E. revert E. unfold ray_at, combine3, exact_ray, exact_tri, far, aside. cbn [rorigin rdirection pa pb pc frorigin frdirection fta ftb ftc]. int_exact. unfold exact_vec. cbn [fx fy fz]. change (B2R (b64_of_Z 0)) with 0. vunfold. cbn [vx vy vz]. lra.
Qed.
Print Assumptions C97_nan_refuted.
