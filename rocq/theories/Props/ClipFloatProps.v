(** * C93: cutting triangles in double precision *)
From Coq Require Import ZArith Reals List Bool Lia Lra.
From Flocq Require Import Core IEEE754.BinarySingleNaN.
From Verif Require Import Model.Scalar Model.BoxFloat Model.Vec Model.Plane Model.PlaneFloat Model.ClipFloat Spec.PlaneSpec Spec.FloatSpec Spec.InterpSpec Spec.ClipFloatSpec
  Proofs.PlaneLemmas Proofs.PlaneFloatLemmas Proofs.SplineFloat Proofs.ClipFloatLemmas.
Import ListNotations.
Local Open Scope R_scope.

(** A triangle whose corners are clear of the plane is reported to be in front or behind exactly if it is.  Otherwise the parts are the corners of their side and the
    crossings of the edges between the sides, on the way around.  The crossings are on their edges, and with the rounded coordinates too they are on the plane, both up to
    rounding; the corners stay exactly where they are. *)
Theorem C93_cut : forall alt p eps a b c, cuttable alt p eps a b c ->
  let pl := exact_plane p in
  let at_ i := exact_vec (corner a b c i) in
  let f i := in_front_of alt pl (at_ i) in
  if forallb f [0; 1; 2]%nat then exists q, fclip_triangle alt p a b c eps = Some (InFrontOf, q)
  else if forallb (fun i => negb (f i)) [0; 1; 2]%nat then exists q, fclip_triangle alt p a b c eps = Some (Behind, q)
  else exists corners crossings,
    fclip_triangle alt p a b c eps = Some (Clipped, (part f corners crossings true, part f corners crossings false)) /\
    forall i, (i < 3)%nat ->
      at_corner i (exact_vec (corners i)) /\ exact_vec (fposition (corners i) a b c) = at_ i /\
      (f i <> f (S i) ->
        on_edge i (exact_vec (crossings i)) /\
        Rabs (side alt pl (combine3 (exact_vec (crossings i)) (exact_vec a) (exact_vec b) (exact_vec c))) <= edge_slack pl (at_ i) (at_ (S i)) /\
        Rabs (side alt pl (exact_vec (fposition (crossings i) a b c))) <= edge_slack pl (at_ i) (at_ (S i)) + underflow (Plane.normal pl)).
Proof.
  intros alt p eps a b c H pl at_ f. pose proof (cut_result alt p eps a b c H) as R. change (side_at alt p a b c) with f in R. cbn [forallb]. rewrite !andb_true_r, !andb_assoc.
  destruct (f 0%nat && f 1%nat && f 2%nat); [eauto|]. destruct (negb (f 0%nat) && negb (f 1%nat) && negb (f 2%nat)); [eauto|].
  exists fcorner, (crossing_of alt p a b c). split; [exact R|]. intros i Hi. split; [|split].
  - unfold at_corner, exact_vec. destruct one_value as [V1 _]. destruct i as [|[|[|i]]]; [| | |lia]; cbn [fcorner fx fy fz corner]; rewrite V1; reflexivity.
  - destruct H as (_ & _ & ((A1 & A2 & A3) & (B1 & B2 & B3) & (C1 & C2 & C3)) & _). unfold at_, exact_vec, fposition. cbn [fx fy fz].
    rewrite (proj2 (blend_corner i _ _ _ Hi A1 B1 C1)), (proj2 (blend_corner i _ _ _ Hi A2 B2 C2)), (proj2 (blend_corner i _ _ _ Hi A3 B3 C3)).
    destruct i as [|[|[|i]]]; reflexivity.
  - intros N. assert (X : xorb (f i) (f (S i)) = true) by (destruct (f i), (f (S i)); try reflexivity; now exfalso; apply N).
    split; [exact (proj1 (edge_point alt p eps a b c H i Hi X))|]. split; [exact (edge_near alt p eps a b c H i Hi X)|exact (position_near alt p eps a b c H i Hi X)].
Qed.
Print Assumptions C93_cut.

Definition point (x y z : Z) : fvec := FV (b64_of_Z x) (b64_of_Z y) (b64_of_Z z).

Lemma small_int n : (0 <= n <= 2 ^ 53)%Z -> B2R (b64_of_Z n) = IZR n /\ is_finite (b64_of_Z n) = true.
Proof. intros H. destruct (Z.eq_dec n 0) as [->|N]; [now split|]. apply b64_int. lia. Qed.
Lemma small_tame n : (0 <= n <= 2 ^ 53)%Z -> tame (b64_of_Z n).
Proof.
  intros H. destruct (small_int n H) as [V F]. split; [exact F|]. rewrite V, Rabs_right by (apply Rle_ge, IZR_le; lia). apply Rle_trans with (bpow radix2 53); [|apply bpow_le; lia].
  change (bpow radix2 53) with (IZR (2 ^ 53)). apply IZR_le. lia.
Qed.
(** The plane x = 12 *)
Definition wall : fplane := mkFPlane (point 1 0 0) (b64_of_Z 12).
Lemma wall_cuttable x1 y1 z1 x2 y2 z2 x3 y3 z3 : (forall v, In v [x1; y1; z1; x2; y2; z2; x3; y3; z3] -> 0 <= v <= 100)%Z -> (forall v, In v [x1; x2; x3] -> 2 <= Z.abs (v - 12))%Z ->
  cuttable false wall (b64_of_Z 1) (point x1 y1 z1) (point x2 y2 z2) (point x3 y3 z3).
Proof.
  intros I X. assert (T : forall x y z, In x [x1; y1; z1; x2; y2; z2; x3; y3; z3] -> In y [x1; y1; z1; x2; y2; z2; x3; y3; z3] -> In z [x1; y1; z1; x2; y2; z2; x3; y3; z3] -> tame_vec (point x y z)).
  { intros x y z Hx Hy Hz. apply I in Hx, Hy, Hz. repeat split; apply small_tame; lia. }
  assert (M : forall x y z, In x [x1; y1; z1; x2; y2; z2; x3; y3; z3] -> 0 <= magnitude (Plane.normal (exact_plane wall)) (exact_vec (point x y z)) (distance (exact_plane wall)) <= 112).
  { intros x y z Hx. apply I in Hx. unfold magnitude, exact_plane, wall, exact_vec, point. cbn [Plane.normal distance fnormal fdistance fx fy fz vx vy vz].
    destruct (small_int 1) as [-> _]; [lia|]. destruct (small_int 0) as [-> _]; [lia|]. destruct (small_int 12) as [-> _]; [lia|]. destruct (small_int x) as [-> _]; [lia|].
    rewrite !Rmult_0_l, Rmult_1_l, Rabs_R0. destruct Hx as [H1 H2]. apply IZR_le in H1, H2. rewrite !Rabs_right by lra. lra. }
  assert (D : forall x y z, In x [x1; x2; x3] -> 2 <= Rabs (side false (exact_plane wall) (exact_vec (point x y z)))).
  { intros x y z Hx. assert (Hx' : In x [x1; y1; z1; x2; y2; z2; x3; y3; z3]) by (cbn in *; tauto). apply I in Hx'. apply X in Hx.
    rewrite side_dsign. unfold dot, exact_plane, wall, exact_vec, point, dsign. cbn [Plane.normal distance fnormal fdistance fx fy fz vx vy vz].
    destruct (small_int 1) as [-> _]; [lia|]. destruct (small_int 0) as [-> _]; [lia|]. destruct (small_int 12) as [-> _]; [lia|]. destruct (small_int x) as [-> _]; [lia|].
    apply IZR_le in Hx. rewrite abs_IZR, minus_IZR in Hx. eapply Rle_trans; [exact Hx|]. apply Req_le, f_equal. ring. }
  destruct (small_int 1) as [V1 F1]; [lia|].
  assert (P47 : 0 < bpow radix2 (-47) <= / 1000) by (split; [apply bpow_gt_0|apply Rle_trans with (bpow radix2 (-10)); [apply bpow_le; lia|change (bpow radix2 (-10)) with (/ 1024); lra]]).
  assert (P1066 : bpow radix2 (-1066) <= / 1000) by (apply Rle_trans with (bpow radix2 (-10)); [apply bpow_le; lia|change (bpow radix2 (-10)) with (/ 1024); lra]).
  assert (P50 : 0 < bpow radix2 (-50) <= / 1000) by (split; [apply bpow_gt_0|apply Rle_trans with (bpow radix2 (-10)); [apply bpow_le; lia|change (bpow radix2 (-10)) with (/ 1024); lra]]).
  assert (P1070 : bpow radix2 (-1070) <= / 1000) by (apply Rle_trans with (bpow radix2 (-10)); [apply bpow_le; lia|change (bpow radix2 (-10)) with (/ 1024); lra]).
  assert (K : forall x y z x' y' z', In x [x1; x2; x3] -> In x' [x1; x2; x3] -> edge_slack (exact_plane wall) (exact_vec (point x y z)) (exact_vec (point x' y' z')) <= B2R (b64_of_Z 1)).
  { intros. rewrite V1. unfold edge_slack. destruct (M x y z) as [Q1 Q2]; [cbn in *; tauto|]. destruct (M x' y' z') as [Q3 Q4]; [cbn in *; tauto|]. nra. }
  assert (C : forall x y z, In x [x1; x2; x3] -> clear_of false (exact_plane wall) (B2R (b64_of_Z 1)) (exact_vec (point x y z))).
  { intros x y z Hx. unfold clear_of, slack. rewrite V1. specialize (D x y z Hx). destruct (M x y z) as [Q1 Q2]; [cbn in *; tauto|]. nra. }
  split; [|split; [exact F1|]].
  - split; [split; [|split]|]; apply tame_moderate, small_tame; lia.
  - split; [repeat split; apply small_tame; (match goal with |- (0 <= ?v <= _)%Z => assert (0 <= v <= 100)%Z by (apply I; cbn; tauto) end); lia|].
    cbv zeta. split; [split; [|split]; apply K; cbn; tauto|split; [|split]; apply C; cbn; tauto].
Qed.
Lemma wall_side x y z : (0 <= x <= 100)%Z -> in_front_of false (exact_plane wall) (exact_vec (point x y z)) = (12 <? x)%Z.
Proof.
  intros Hx. unfold in_front_of. rewrite side_dsign. unfold dot, exact_plane, wall, exact_vec, point, dsign. cbn [Plane.normal distance fnormal fdistance fx fy fz vx vy vz].
  destruct (small_int 1) as [-> _]; [lia|]. destruct (small_int 0) as [-> _]; [lia|]. destruct (small_int 12) as [-> _]; [lia|]. destruct (small_int x) as [-> _]; [lia|].
  destruct (Rlt_dec _ _) as [L|L]; symmetry; [apply Z.ltb_lt, lt_IZR; lra|apply Z.ltb_ge, le_IZR; lra].
Qed.
(** A triangle with one corner in front *)
Example C93_example : cuttable false wall (b64_of_Z 1) (point 4 4 4) (point 16 0 4) (point 4 0 8) /\
  exists front back, fclip_triangle false wall (point 4 4 4) (point 16 0 4) (point 4 0 8) (b64_of_Z 1) = Some (Clipped, (front, back)) /\ length front = 3%nat /\ length back = 4%nat.
Proof.
  split.
  - apply wall_cuttable; cbn; lia.
  - assert (L : match fclip_triangle false wall (point 4 4 4) (point 16 0 4) (point 4 0 8) (b64_of_Z 1) with Some (Clipped, (f, b)) => (length f, length b) | _ => (0%nat, 0%nat) end = (3, 4)%nat) by (vm_compute; reflexivity).
    revert L. destruct (fclip_triangle _ _ _ _ _ _) as [[[] [f b]]|]; intros L; try discriminate. exists f, b. split; [reflexivity|]. now injection L.
Qed.

(** Refuted (finding): two triangles with a common edge are cut at different points of it, because the second one goes along the edge in the other direction.  So a cut opens
    cracks in a closed mesh at the plane.  Here b is the only corner in front, and the edge from a to b is the first edge of both triangles. *)
Theorem C93_crack_refuted : exists a b c d u u' v v' back back',
  cuttable false wall (b64_of_Z 1) a b c /\ cuttable false wall (b64_of_Z 1) b a d /\
  fclip_triangle false wall a b c (b64_of_Z 1) = Some (Clipped, ([u; fcorner 1; u'], back)) /\
  fclip_triangle false wall b a d (b64_of_Z 1) = Some (Clipped, ([fcorner 0; v; v'], back')) /\
  on_edge 0 (exact_vec u) /\ on_edge 0 (exact_vec v) /\ vx (exact_vec (fposition u a b c)) < vx (exact_vec (fposition v b a d)).
Proof.
  exists (point 4 4 4), (point 16 0 4), (point 4 0 8), (point 4 0 1).
  set (a := point 4 4 4). set (b := point 16 0 4). set (c := point 4 0 8). set (d := point 4 0 1).
  assert (H1 : cuttable false wall (b64_of_Z 1) a b c) by (apply wall_cuttable; cbn; lia).
  assert (H2 : cuttable false wall (b64_of_Z 1) b a d) by (apply wall_cuttable; cbn; lia).
  exists (crossing_of false wall a b c 0), (crossing_of false wall a b c 1), (crossing_of false wall b a d 0), (crossing_of false wall b a d 2).
  assert (Sa : in_front_of false (exact_plane wall) (exact_vec a) = false) by (apply wall_side; lia).
  assert (Sb : in_front_of false (exact_plane wall) (exact_vec b) = true) by (apply wall_side; lia).
  assert (Sc : in_front_of false (exact_plane wall) (exact_vec c) = false) by (apply wall_side; lia).
  assert (Sd : in_front_of false (exact_plane wall) (exact_vec d) = false) by (apply wall_side; lia).
  exists (part (side_at false wall a b c) fcorner (crossing_of false wall a b c) false), (part (side_at false wall b a d) fcorner (crossing_of false wall b a d) false).
  split; [exact H1|]. split; [exact H2|].
  split; [|split; [|split; [|split]]].
  - rewrite (cut_result false wall _ _ _ _ H1). unfold part, side_at. cbn [flat_map corner]. rewrite Sa, Sb, Sc. reflexivity.
  - rewrite (cut_result false wall _ _ _ _ H2). unfold part, side_at. cbn [flat_map corner]. rewrite Sa, Sb, Sd. reflexivity.
  - apply (edge_point false wall _ _ _ _ H1 0 ltac:(lia)). unfold side_at. cbn [corner]. rewrite Sa, Sb. reflexivity.
  - apply (edge_point false wall _ _ _ _ H2 0 ltac:(lia)). unfold side_at. cbn [corner]. rewrite Sa, Sb. reflexivity.
  - apply blt; vm_compute; reflexivity.
Qed.
Print Assumptions C93_crack_refuted.

(** Refuted (finding) if the coordinates are large for the tolerance: a corner that is classified to be behind may give no crossing, and the part in front has only two corners, although
    the triangle is in front there over a large area. *)
Definition inclined : fplane := mkFPlane (FV (b64_div (b64_of_Z 3) (b64_of_Z 5)) (b64_div (b64_of_Z 4) (b64_of_Z 5)) b64_0) b64_0.
Definition scaled (x y : Z) : fvec := point (x * 2 ^ 51) (y * 2 ^ 51) 0.
Definition counts (r : option (relation * (fpoly * fpoly))) : option (relation * (nat * nat)) := match r with Some (k, (f, b)) => Some (k, (length f, length b)) | None => None end.
Theorem C93_lost_refuted : exists a b c, (moderate_plane inclined /\ tame_vec a /\ tame_vec b /\ tame_vec c) /\
  (frelation_point false inclined a (b64_of_Z 1), frelation_point false inclined b (b64_of_Z 1), frelation_point false inclined c (b64_of_Z 1)) = (InFrontOf, Behind, Behind) /\
  counts (fclip_triangle false inclined a b c (b64_of_Z 1)) = Some (Clipped, (2, 3)%nat).
Proof.
  exists (scaled 1 3), (scaled 8 (-6)), (scaled 0 (-1)). split; [|split; vm_compute; reflexivity].
  split; [split; [split; [|split]|]; apply tame_moderate|split; [|split]; (split; [|split])]; apply tame_exponent; vm_compute; reflexivity.
Qed.
Print Assumptions C93_lost_refuted.
