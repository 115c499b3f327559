(** The volumes enclosed by the meshes of the generators. *)
From Coq Require Import ZArith Reals List Bool Arith Lia Lra Nsatz.
From Verif Require Import Model.Scalar Model.Vec Model.Aabb Model.Mesh Model.Interp Model.Bezier Model.Transforms Model.MeshGen Spec.MeshGenSpec Spec.ClosedSpec
  Spec.WindingSpec Spec.VolumeSpec Proofs.VecLemmas Proofs.MeshGenLoops Proofs.MeshGenResult Proofs.MeshGenInv Proofs.MeshGenTotal Proofs.MeshGenMain
  Proofs.MeshGenSurface Proofs.MeshGenChains Proofs.MeshGenClosed Proofs.MeshGenWinding.
Import ListNotations.
Local Open Scope R_scope.

Definition det (a b c : vec3) : R := dot a (cross b c).
Definition det3 (t : vec3 * vec3 * vec3) : R := let '(a, b, c) := t in det a b c.
Definition vsum (l : list (vec3 * vec3 * vec3)) : R := fold_right Rplus 0 (map det3 l).
Lemma vsum_volume l : volume l = vsum l / 6.
Proof. unfold volume, vsum. induction l as [|[[a b] c] l IH]; cbn [map fold_right]; [lra|]. rewrite IH. cbn [tetrahedron det3]. unfold det. lra. Qed.
Lemma vsum_app l k : vsum (l ++ k) = vsum l + vsum k.
Proof. unfold vsum. rewrite map_app. induction (map det3 l); cbn [fold_right app]; lra. Qed.
Lemma vsum_cons t l : vsum (t :: l) = det3 t + vsum l.
Proof. reflexivity. Qed.
Lemma vsum_flat_seq {A} (F : A -> vec3 * vec3 * vec3) (f : nat -> list A) a n :
  vsum (map F (flat_map f (seq a n))) = zsum n (fun i => vsum (map F (f (a + i)%nat))).
Proof.
  revert a. induction n; intros a; [reflexivity|]. cbn [seq flat_map]. rewrite map_app, vsum_app, IHn, zsum_first.
  replace (a + 0)%nat with a by num. f_equal. apply zsum_ext. intros i Hi. do 3 f_equal. num.
Qed.
Lemma det_rot a b c : det a b c = det b c a.
Proof. unfold det. vecs. ring. Qed.
Lemma det_swap a b c : det a b c = - det b a c.
Proof. unfold det. vecs. ring. Qed.
Lemma det_same a b : det a a b = 0.
Proof. unfold det. vecs. ring. Qed.

(** Cells that are flat *)
Section Cells.
Variable q : nat -> nat -> vec3.
Let at_ (l : nat * nat) : vec3 := q (fst l) (snd l).
Definition quad (i j : nat) : R := det (q i j) (q (i + 1) j) (q (i + 1) (j + 1)) + det (q i j) (q (i + 1) (j + 1)) (q i (j + 1)).
Definition other (i j : nat) : R := det (q i j) (q (i + 1) j) (q i (j + 1)) + det (q (i + 1) j) (q (i + 1) (j + 1)) (q i (j + 1)).
Lemma cell_vsum o ac i j : quad i j = other i j -> vsum (map (tmap at_) (cell o ac i j)) = sign o * quad i j.
Proof.
  intros F. assert (G : forall x, x = sign o * (if xorb (ac i j) match o with O1 | O3 => true | _ => false end then quad i j else other i j) -> x = sign o * quad i j) by (intros x ->; destruct (xorb _ _); [reflexivity|now rewrite F]).
  apply G. clear G F. unfold at_.
  destruct o; cbn [cell sign]; unfold cut; destruct (ac i j); cbn [map tmap fst snd]; rewrite !vsum_cons; unfold vsum; cbn [map fold_right det3 xorb]; unfold quad, other;
    generalize (q i j) (q (i + 1)%nat j) (q i (j + 1)%nat) (q (i + 1)%nat (j + 1)%nat); intros a b c d; unfold det; vecs; ring.
Qed.
Definition quads (M C : nat) : R := zsum M (fun i => zsum C (fun j => quad i j)).
Lemma grid_vsum o ac M C : (forall i j, (i < M)%nat -> (j < C)%nat -> quad i j = other i j) -> vsum (map (tmap at_) (grid o ac M C)) = sign o * quads M C.
Proof.
  intros F. unfold grid. rewrite vsum_flat_seq. cbn [Nat.add]. unfold quads. rewrite <- zsum_scale. apply zsum_ext. intros i Hi.
  rewrite vsum_flat_seq. cbn [Nat.add]. rewrite <- zsum_scale. apply zsum_ext. intros j Hj. now apply cell_vsum, F.
Qed.
Lemma disc_vsum (up : bool) ac H K : (0 < K)%nat -> (forall i, q i 0%nat = q 0%nat 0%nat) -> (forall i j, (i < H)%nat -> (j < K)%nat -> quad i j = other i j) ->
  vsum (map (tmap at_) (disc up ac H K)) = sign (if up then O1 else O0) * quads H K.
Proof.
  intros HK C F. unfold disc. rewrite vsum_flat_seq. cbn [Nat.add]. unfold quads. rewrite <- zsum_scale. apply zsum_ext. intros i Hi.
  cbn [map]. rewrite vsum_cons, vsum_flat_seq. destruct K as [|k]; [num|]. replace (S k - 1)%nat with k by num. rewrite zsum_first.
  rewrite (zsum_ext k _ (fun j => sign (if up then O1 else O0) * quad i (S j))) by (intros j Hj; apply (cell_vsum (if up then O1 else O0)), F; num).
  rewrite zsum_scale, Rmult_plus_distr_l. f_equal. unfold quad, at_. cbn [Nat.add]. rewrite !(C i), !(C (i + 1)%nat), det_same.
  destruct up; cbn [tmap det3 fst snd sign]; generalize (q 0%nat 0%nat) (q i 1%nat) (q (i + 1)%nat 1%nat); intros a b c; unfold det; vecs; ring.
Qed.
Lemma cone_vsum ac H V : (0 < V)%nat -> (forall i, q i 0%nat = q 0%nat 0%nat) -> (forall i j, (i < H)%nat -> (j < V)%nat -> quad i j = other i j) ->
  vsum (map (tmap at_) (cone_fan ac H V)) = - quads H V.
Proof.
  intros HK C F. unfold cone_fan. rewrite vsum_flat_seq. cbn [Nat.add]. replace (- quads H V) with (-1 * quads H V) by ring. unfold quads. rewrite <- zsum_scale. apply zsum_ext. intros i Hi.
  cbn [map]. rewrite vsum_cons, vsum_flat_seq. destruct V as [|k]; [num|]. replace (S k - 1)%nat with k by num. rewrite zsum_first.
  rewrite (zsum_ext k _ (fun j => -1 * quad i (S j))) by (intros j Hj; apply (cell_vsum O1), F; num).
  rewrite zsum_scale, Rmult_plus_distr_l. f_equal. unfold quad, at_. cbn [Nat.add tmap det3 fst snd sign]. rewrite !(C i), !(C (i + 1)%nat), det_same.
  generalize (q 0%nat 0%nat) (q i 1%nat) (q (i + 1)%nat 1%nat); intros a b c; unfold det; vecs; ring.
Qed.
End Cells.

Definition patch_vsum (P : mesh_patch) : R := vsum (map (tmap (fun l => position (p_at P l))) (p_tris P)).
Lemma patches_vsum ps : vsum (map (tmap position) (flat_map (fun p => map (tmap (p_at p)) (p_tris p)) ps)) = fold_right Rplus 0 (map patch_vsum ps).
Proof.
  induction ps as [|P ps IH]; [reflexivity|]. cbn [flat_map map fold_right]. rewrite map_app, vsum_app, IH. f_equal. unfold patch_vsum.
  f_equal. rewrite map_map. apply map_ext. intros [[a b] c]. reflexivity.
Qed.
Lemma patch_vsum_at P q : (forall i j, position (p_at P (i, j)) = q i j) ->
  patch_vsum P = vsum (map (tmap (fun l => q (fst l) (snd l))) (p_tris P)).
Proof. intros E. unfold patch_vsum. f_equal. apply map_ext. intros [[[a1 a2] [b1 b2]] [c1 c2]]. cbn. rewrite !E. reflexivity. Qed.

(** Surfaces of revolution *)
Section Turned.
Variables A B Y S C : nat -> R.
Definition turned_point (i j : nat) : vec3 := V3 (A j * S i) (Y j) (B j * C i).
Definition turned_col (j i : nat) : vec3 := turned_point i j.
Definition profile (j : nat) : R := (A j * B j + A j * B (j + 1)%nat) * Y (j + 1)%nat - (A (j + 1)%nat * B (j + 1)%nat + A j * B (j + 1)%nat) * Y j.
Definition turn (i : nat) : R := C i * S (i + 1)%nat - S i * C (i + 1)%nat.

Lemma turned_quad i j : A j * B (j + 1)%nat = A (j + 1)%nat * B j ->
  quad turned_point i j = profile j * turn i /\ other turned_point i j = profile j * turn i.
Proof.
  unfold quad, other, turned_point, profile, turn, det. vecs.
  generalize (A j) (B j) (Y j) (A (j + 1)%nat) (B (j + 1)%nat) (Y (j + 1)%nat) (S i) (C i) (S (i + 1)%nat) (C (i + 1)%nat).
  intros a b y a' b' y' s c s' c' E. 
  split; nsatz.
Qed.
Lemma turned_col_quad i j : quad turned_col j i = - quad turned_point i j /\ other turned_col j i = - other turned_point i j.
Proof.
  unfold quad, other, turned_col. generalize (turned_point i j) (turned_point (i + 1) j) (turned_point i (j + 1)) (turned_point (i + 1) (j + 1)).
  intros a b c d. unfold det. vecs. split; ring.
Qed.
Lemma zsum_prod n m f g : zsum n (fun i => zsum m (fun j => g j * f i)) = zsum m g * zsum n f.
Proof. rewrite <- zsum_scale. apply zsum_ext. intros i _. rewrite (zsum_ext m _ (fun j => f i * g j)) by (intros; ring). rewrite zsum_scale. ring. Qed.
Lemma turned_quads n m : (forall j, (j < m)%nat -> A j * B (j + 1)%nat = A (j + 1)%nat * B j) -> quads turned_point n m = zsum m profile * zsum n turn.
Proof. intros E. unfold quads. rewrite <- zsum_prod. apply zsum_ext. intros i _. apply zsum_ext. intros j Hj. now apply turned_quad, E. Qed.
Lemma turned_cols n m : (forall j, (j < m)%nat -> A j * B (j + 1)%nat = A (j + 1)%nat * B j) -> quads turned_col m n = - (zsum m profile * zsum n turn).
Proof.
  intros E. unfold quads. rewrite <- zsum_scale with (k := zsum m profile), <- zsum_opp. 
  transitivity (zsum m (fun j => - zsum n turn * profile j)); [|rewrite zsum_scale, zsum_opp, zsum_scale; ring].
  apply zsum_ext. intros j Hj. replace (- zsum n turn * profile j) with (- profile j * zsum n turn) by ring. rewrite <- zsum_scale. apply zsum_ext. intros i Hi.
  destruct (turned_col_quad i j) as [-> _]. destruct (turned_quad i j (E j Hj)) as [-> _]. ring.
Qed.
End Turned.

Lemma zsum_const n c : zsum n (fun _ => c) = INR n * c.
Proof. induction n; cbn [zsum]; [cbn; ring|]. rewrite IHn, S_INR. ring. Qed.
Lemma turn_sc a s n : zsum n (turn (fun i => sin (at_angle a s i)) (fun i => cos (at_angle a s i))) = INR n * sin s.
Proof.
  rewrite <- zsum_const. apply zsum_ext. intros i _. unfold turn. rewrite angle_next. rewrite <- (turn_det (at_angle a s i) s). ring.
Qed.
Lemma turn_cs a s n : zsum n (turn (fun i => cos (at_angle a s i)) (fun i => sin (at_angle a s i))) = - (INR n * sin s).
Proof.
  rewrite <- zsum_const, <- zsum_opp. apply zsum_ext. intros i _. unfold turn. rewrite angle_next. rewrite <- (turn_det (at_angle a s i) s). ring.
Qed.

(** ** The parts *)
Lemma mantle_vsum alt (rev : bool) start step rx rz half side H V : (0 < V)%nat ->
  patch_vsum (mantle_patch alt rev start step rx rz half side H V) = (if rev then -1 else 1) * (4 * half * (rx * rz) * (INR H * sin step)).
Proof.
  intros PV. set (q := turned_point (fun _ => rx) (fun _ => rz) (fun j => half * (1 - 2 * frac j V)) (fun i => sin (at_angle start step i)) (fun i => cos (at_angle start step i))).
  rewrite (patch_vsum_at _ q) by (intros i j; unfold q, turned_point; apply vec3_ext; cbn; unfold lerp; ring).
  cbn [p_tris mantle_patch]. rewrite grid_vsum.
  - unfold q. rewrite turned_quads by (intros; ring). rewrite turn_sc.
    rewrite (zsum_ext V _ (fun j => 2 * (rx * rz) * (half * (1 - 2 * frac (j + 1) V) - half * (1 - 2 * frac j V)))) by (intros; unfold profile; ring).
    rewrite zsum_scale, (zsum_tele V (fun j => half * (1 - 2 * frac j V))), frac0, frac1 by assumption. destruct rev; cbn [sign]; ring.
  - intros i j _ _. destruct (turned_quad (fun _ => rx) (fun _ => rz) (fun j => half * (1 - 2 * frac j V)) (fun i => sin (at_angle start step i)) (fun i => cos (at_angle start step i)) i j) as [E1 E2]; [ring|].
    unfold q. now rewrite E1, E2.
Qed.
Lemma disc_part_vsum alt (up : bool) start step rx rz y side H K : (0 < K)%nat ->
  patch_vsum (disc_patch alt up start step rx rz y side H K) = (if up then 1 else -1) * (y * (rx * rz) * (INR H * sin step)).
Proof.
  intros PK. set (q := turned_point (fun j => frac j K * rx) (fun j => frac j K * rz) (fun j => y) (fun i => sin (at_angle start step i)) (fun i => cos (at_angle start step i))).
  rewrite (patch_vsum_at _ q).
  2:{ intros i j. etransitivity; [exact (disc_position rx rz y start step side up K i j)|]. unfold q, dq, turned_point. apply vec3_ext; cbn [vx vy vz]; ring. }
  cbn [p_tris disc_patch]. rewrite disc_vsum; [|assumption| |].
  - unfold q. rewrite turned_quads by (intros; ring). rewrite turn_sc.
    rewrite (zsum_ext K _ (fun j => - (y * (rx * rz)) * (frac (j + 1) K * frac (j + 1) K - frac j K * frac j K))) by (intros; unfold profile; ring).
    rewrite zsum_scale, (zsum_tele K (fun j => frac j K * frac j K)), frac0, frac1 by assumption. destruct up; cbn [sign]; ring.
  - intros i. unfold q, turned_point. rewrite frac0. apply vec3_ext; cbn [vx vy vz]; ring.
  - intros i j _ _. destruct (turned_quad (fun j => frac j K * rx) (fun j => frac j K * rz) (fun _ => y) (fun i => sin (at_angle start step i)) (fun i => cos (at_angle start step i)) i j) as [E1 E2]; [ring|].
    unfold q. now rewrite E1, E2.
Qed.
Lemma wall_vsum alt rev rx rz half side noff tc0 tc1 M V : patch_vsum (wall_patch alt rev rx rz half side noff tc0 tc1 M V) = 0.
Proof.
  rewrite (patch_vsum_at _ (wq rx rz half side M V)) by (intros i j; apply vec3_ext; cbn; unfold lerp; ring).
  cbn [p_tris wall_patch]. assert (Z : forall i j, quad (wq rx rz half side M V) i j = 0 /\ other (wq rx rz half side M V) i j = 0).
  { intros i j. unfold quad, other, wq, det. vecs. split; ring. }
  rewrite grid_vsum.
  - unfold quads. rewrite (zsum_zero M); [ring|]. intros i _. apply zsum_zero. intros j _. apply Z.
  - intros i j _ _. destruct (Z i j) as [-> ->]. reflexivity.
Qed.

(** Rings: the cells need not be trapezoids. *)
Lemma ring_vsum d (up : bool) y side H K : (0 < H)%nat -> (0 < K)%nat ->
  patch_vsum (ring_patch d up (full H) y side H K) =
  (if up then 1 else -1) * (y * (x2 (pp_outer d) * y2 (pp_outer d) - x2 (pp_inner d) * y2 (pp_inner d)) * (INR H * sin (full H))).
Proof.
  intros PH PK. set (ri := pp_inner d). set (ro := pp_outer d).
  rewrite (patch_vsum_at _ (rq ri ro (full H) y K)) by (intros i j; apply vec3_ext; cbn; unfold ri, ro; ring).
  cbn [p_tris ring_patch]. pose (A := fun j => x2 ri + frac j K * (x2 ro - x2 ri)). pose (B := fun j => y2 ri + frac j K * (y2 ro - y2 ri)).
  pose (S := fun i => sin (at_angle 0 (full H) i)). pose (C := fun i => cos (at_angle 0 (full H) i)).
  assert (Q : forall i j, quad (rq ri ro (full H) y K) i j = y * (A j * B j - A (j + 1)%nat * B (j + 1)%nat) * turn S C i + y * (A (j + 1)%nat * B j - A j * B (j + 1)%nat) * (S (i + 1)%nat * C (i + 1)%nat - S i * C i)
    /\ other (rq ri ro (full H) y K) i j = quad (rq ri ro (full H) y K) i j).
  { intros i j. unfold quad, other, rq, turn, det. vecs. fold (A j) (A (j + 1)%nat) (B j) (B (j + 1)%nat) (S i) (S (i + 1)%nat) (C i) (C (i + 1)%nat). split; ring. }
  rewrite grid_vsum by (intros i j _ _; symmetry; apply Q).
  assert (E : quads (rq ri ro (full H) y K) H K = - (y * (x2 ro * y2 ro - x2 ri * y2 ri) * (INR H * sin (full H)))).
  { unfold quads. rewrite (zsum_ext H _ (fun i => zsum K (fun j => y * (A j * B j - A (j + 1)%nat * B (j + 1)%nat)) * turn S C i
      + zsum K (fun j => y * (A (j + 1)%nat * B j - A j * B (j + 1)%nat)) * (S (i + 1)%nat * C (i + 1)%nat - S i * C i))).
    - rewrite zsum_add, !(zsum_scale H). rewrite (zsum_tele H (fun i => S i * C i)). destruct (full_sin H PH) as [E1 E2]. fold (S H) (S O) in E1. fold (C H) (C O) in E2. rewrite E1, E2. unfold S at 1, C at 1. rewrite turn_sc.
      rewrite (zsum_ext K (fun j => y * (A j * B j - A (j + 1)%nat * B (j + 1)%nat)) (fun j => - y * (A (j + 1)%nat * B (j + 1)%nat - A j * B j))) by (intros; ring).
      rewrite zsum_scale, (zsum_tele K (fun j => A j * B j)). unfold A at 1 2, B at 1 2. rewrite frac0, frac1 by assumption. ring.
    - intros i _. rewrite (zsum_ext K _ (fun j => turn S C i * (y * (A j * B j - A (j + 1)%nat * B (j + 1)%nat)) + (S (i + 1)%nat * C (i + 1)%nat - S i * C i) * (y * (A (j + 1)%nat * B j - A j * B (j + 1)%nat)))).
      + rewrite zsum_add, !zsum_scale. ring.
      + intros j _. destruct (Q i j) as [-> _]. ring. }
  rewrite E. destruct up; cbn [sign]; ring.
Qed.

Lemma cone_mantle_vsum (d : cone) half H V step (ac : nat -> nat -> bool) : half = co_height d * (1 / 2) -> (0 < V)%nat ->
  patch_vsum (mkPatch (cone_fan ac H V) (fun l => if (snd l =? 0)%nat then cone_tip half H (fst l) else cone_vertex d half H V (at_angle 0 step (fst l)) (fst l) (snd l)))
  = half * (x2 (co_radius d) * y2 (co_radius d)) * (INR H * sin step).
Proof.
  intros EH PV. set (rx := x2 (co_radius d)). set (rz := y2 (co_radius d)).
  set (q := turned_point (fun j => frac j V * rx) (fun j => frac j V * rz) (fun j => half * (1 - 2 * frac j V)) (fun i => sin (at_angle 0 step i)) (fun i => cos (at_angle 0 step i))).
  rewrite (patch_vsum_at _ q).
  2:{ intros i j. subst half. etransitivity; [exact (cone_position d H V step i j)|]. unfold q, turned_point, rx, rz. apply vec3_ext; cbn [vx vy vz]; ring. }
  cbn [p_tris]. rewrite cone_vsum; [|assumption| |].
  - unfold q. rewrite turned_quads by (intros; ring). rewrite turn_sc.
    rewrite (zsum_ext V _ (fun j => - (half * (rx * rz)) * (frac (j + 1) V * frac (j + 1) V - frac j V * frac j V))) by (intros; unfold profile; ring).
    rewrite zsum_scale, (zsum_tele V (fun j => frac j V * frac j V)), frac0, frac1 by assumption. ring.
  - intros i. unfold q, turned_point. rewrite frac0. apply vec3_ext; cbn [vx vy vz]; ring.
  - intros i j _ _. destruct (turned_quad (fun j => frac j V * rx) (fun j => frac j V * rz) (fun j => half * (1 - 2 * frac j V)) (fun i => sin (at_angle 0 step i)) (fun i => cos (at_angle 0 step i)) i j) as [E1 E2]; [ring|].
    unfold q. now rewrite E1, E2.
Qed.

(** Grids whose rows are the profile *)
Lemma col_vsum P o ac A B Y S C n m : p_tris P = grid o ac m n -> (forall i j, position (p_at P (i, j)) = turned_col A B Y S C i j) ->
  (forall j, (j < m)%nat -> A j * B (j + 1)%nat = A (j + 1)%nat * B j) -> patch_vsum P = - sign o * (zsum m (profile A B Y) * zsum n (turn S C)).
Proof.
  intros T E F. rewrite (patch_vsum_at _ _ E), T. rewrite grid_vsum.
  - rewrite turned_cols by assumption. ring.
  - intros j i Hj Hi. destruct (turned_col_quad A B Y S C i j) as [-> ->]. destruct (turned_quad A B Y S C i j (F j Hj)) as [-> ->]. reflexivity.
Qed.

Lemma half_chord t s : sin s * (sin t + sin (t + s)) = 2 * cos (s / 2) ^ 2 * (cos t - cos (t + s)).
Proof.
  set (u := s / 2). replace s with (u + u) by (unfold u; field). pose (m := t + u). replace (t + (u + u)) with (m + u) by (unfold m; ring). replace t with (m - u) by (unfold m; ring).
  rewrite sin_plus, sin_minus, cos_minus, (sin_plus m u), (cos_plus m u). ring.
Qed.
Lemma sphere_profile rx ry rz half sg ts C :
  zsum C (profile (fun i => sin (at_angle 0 ts i) * rx) (fun i => sin (at_angle 0 ts i) * rz) (fun i => sg * (cos (at_angle 0 ts i) * ry + half))) =
  - (sg * (rx * rz) * (2 * cos (ts / 2) ^ 2 * ry * (1 - cos (at_angle 0 ts C)) + half * sin (at_angle 0 ts C) ^ 2)).
Proof.
  rewrite (zsum_ext C _ (fun i => sg * (rx * rz) * (2 * cos (ts / 2) ^ 2 * ry * (cos (at_angle 0 ts (i + 1)) - cos (at_angle 0 ts i)) - half * (sin (at_angle 0 ts (i + 1)) ^ 2 - sin (at_angle 0 ts i) ^ 2)))).
  - rewrite zsum_scale, zsum_sub, !zsum_scale, (zsum_tele C (fun i => cos (at_angle 0 ts i))), (zsum_tele C (fun i => sin (at_angle 0 ts i) ^ 2)), angle_0, cos_0, sin_0. ring.
  - intros i _. unfold profile. rewrite angle_next. pose proof (half_chord (at_angle 0 ts i) ts) as HC. pose proof (turn_det (at_angle 0 ts i) ts) as TD.
    set (a := at_angle 0 ts i) in *.
    transitivity (sg * (rx * rz) * (- ry * (sin ts * (sin a + sin (a + ts))) - half * (sin (a + ts) ^ 2 - sin a ^ 2))); [rewrite <- TD; ring|]. rewrite HC. ring.
Qed.

Lemma ellipsoid_vsum d : fold_right Rplus 0 (map patch_vsum (patches (DEllipsoid d))) =
  let U := Nat.max 3 (el_u d) in 4 * (vx (el_radius d) * vy (el_radius d) * vz (el_radius d)) * cos (PI / (2 * INR (Nat.max 2 (el_v d)))) ^ 2 * (INR U * sin (full U)).
Proof.
  cbn [patches]. set (U := Nat.max 3 (el_u d)). set (V := Nat.max 2 (el_v d)). assert (HV : (2 <= V)%nat) by (unfold V; lia). clearbody U V. cbv zeta. cbn [map fold_right].
  set (rx := vx (el_radius d)). set (ry := vy (el_radius d)). set (rz := vz (el_radius d)). set (ts := 1 / INR V * PI).
  assert (NV : INR V <> 0) by (apply not_0_INR; lia).
  rewrite (col_vsum _ O2 (diagonal (el_alt d)) (fun i => sin (at_angle 0 ts i) * rx) (fun i => sin (at_angle 0 ts i) * rz) (fun i => 1 * (cos (at_angle 0 ts i) * ry + 0))
    (fun j => cos (at_angle 0 (full U) j)) (fun j => sin (at_angle 0 (full U) j)) U V); [|reflexivity| |intros; ring].
  - rewrite sphere_profile, turn_cs. assert (E : at_angle 0 ts V = PI) by (unfold at_angle, ts; field; assumption). rewrite E, cos_PI, sin_PI.
    replace (ts / 2) with (PI / (2 * INR V)) by (unfold ts; field; assumption). cbn [sign]. ring.
  - intros i j. cbn [p_at fst snd]. unfold turned_col, turned_point, ellipsoid_vertex, spherical, vmul. cbn [position vx vy vz].
    replace (frac i V * PI) with (at_angle 0 ts i) by (unfold frac, at_angle, ts; field; assumption).
    replace (frac j U * pi_2) with (at_angle 0 (full U) j) by (unfold frac, at_angle, full; ring). fold rx ry rz. apply vec3_ext; cbn [vx vy vz]; ring.
Qed.

Lemma cap_vsum (d : capsule) half sg H C : sg = 1 \/ sg = -1 -> (2 <= C)%nat ->
  patch_vsum (mkPatch (grid O2 (diagonal (ca_alt d)) C H) (fun l => cap_vertex d half sg H C (fst l) (snd l)))
  = vx (ca_radius d) * vz (ca_radius d) * (2 * vy (ca_radius d) * cos (PI / (4 * INR C)) ^ 2 + half) * (INR H * sin (full H)).
Proof.
  intros SG HC. set (rx := vx (ca_radius d)). set (ry := vy (ca_radius d)). set (rz := vz (ca_radius d)). set (ts := 1 / INR C * pi_0_5).
  assert (NC : INR C <> 0) by (apply not_0_INR; lia).
  rewrite (col_vsum _ O2 (diagonal (ca_alt d)) (fun i => sin (at_angle 0 ts i) * rx) (fun i => sin (at_angle 0 ts i) * rz) (fun i => sg * (cos (at_angle 0 ts i) * ry + half))
    (fun j => cos (at_angle pi_0_5 (sg * full H) j)) (fun j => sin (at_angle pi_0_5 (sg * full H) j)) H C); [|reflexivity| |intros; ring].
  - rewrite sphere_profile, turn_cs. assert (E : at_angle 0 ts C = PI / 2) by (unfold at_angle, ts, pi_0_5; field; assumption). rewrite E, cos_PI2, sin_PI2.
    replace (ts / 2) with (PI / (4 * INR C)) by (unfold ts, pi_0_5; field; assumption). cbn [sign].
    destruct SG as [-> | ->]; [replace (1 * full H) with (full H) by ring; ring|]. replace (-1 * full H) with (- full H) by ring. rewrite sin_neg. ring.
  - intros i j. cbn [p_at fst snd]. unfold turned_col, turned_point, cap_vertex, spherical, vmul. cbn [position vx vy vz].
    replace (frac i C * pi_0_5) with (at_angle 0 ts i) by (unfold frac, at_angle, ts; field; assumption).
    replace (frac j H * pi_2 * sg + pi_0_5) with (at_angle pi_0_5 (sg * full H) j) by (unfold frac, at_angle, full; ring). fold rx ry rz. apply vec3_ext; cbn [vx vy vz]; ring.
Qed.

(** Cells that are not flat: the mean of both diagonals, and half of their difference *)
Section Bent.
Variable q : nat -> nat -> vec3.
Let at_ (l : nat * nat) : vec3 := q (fst l) (snd l).
Definition mean (i j : nat) : R := (quad q i j + other q i j) / 2.
Definition bend (i j : nat) : R := (quad q i j - other q i j) / 2.
Definition way (o : order) (ac : nat -> nat -> bool) (i j : nat) : R := if xorb (ac i j) match o with O1 | O3 => true | _ => false end then 1 else -1.
Lemma bent_cell o ac i j : vsum (map (tmap at_) (cell o ac i j)) = sign o * (mean i j + way o ac i j * bend i j).
Proof.
  replace (mean i j + way o ac i j * bend i j) with (if xorb (ac i j) match o with O1 | O3 => true | _ => false end then quad q i j else other q i j) by (unfold way, mean, bend; destruct (xorb _ _); field).
  unfold at_. destruct o; cbn [cell sign]; unfold cut; destruct (ac i j); cbn [map tmap fst snd]; rewrite !vsum_cons; unfold vsum; cbn [map fold_right det3 xorb]; unfold quad, other;
    generalize (q i j) (q (i + 1)%nat j) (q i (j + 1)%nat) (q (i + 1)%nat (j + 1)%nat); intros a b c d; unfold det; vecs; ring.
Qed.
Lemma bent_grid o ac M C : vsum (map (tmap at_) (grid o ac M C)) = sign o * (zsum M (fun i => zsum C (fun j => mean i j)) + zsum M (fun i => zsum C (fun j => way o ac i j * bend i j))).
Proof.
  unfold grid. rewrite vsum_flat_seq. cbn [Nat.add]. rewrite <- zsum_add, <- zsum_scale. apply zsum_ext. intros i Hi.
  rewrite vsum_flat_seq. cbn [Nat.add]. rewrite <- zsum_add, <- zsum_scale. apply zsum_ext. intros j Hj. apply bent_cell.
Qed.
End Bent.

Section TurnedBent.
Variables A B Y S C : nat -> R.
Definition cross_mean (j : nat) : R := (A j * B (j + 1)%nat + A (j + 1)%nat * B j) / 2.
Definition profile2 (j : nat) : R := (A j * B j + cross_mean j) * Y (j + 1)%nat - (A (j + 1)%nat * B (j + 1)%nat + cross_mean j) * Y j.
Definition skew (j : nat) : R := A j * B (j + 1)%nat - A (j + 1)%nat * B j.
Definition step2 (i : nat) : R := (S (i + 1)%nat - S i) * (C (i + 1)%nat - C i).
Lemma turned_bent i j :
  mean (turned_col A B Y S C) j i = - profile2 j * turn S C i + skew j * (Y (j + 1)%nat + Y j) / 2 * (S (i + 1)%nat * C (i + 1)%nat - S i * C i) /\
  bend (turned_col A B Y S C) j i = - (skew j * (Y (j + 1)%nat - Y j) / 2) * step2 i.
Proof.
  unfold mean, bend, quad, other, turned_col, turned_point, profile2, cross_mean, skew, step2, turn, det. vecs.
  generalize (A j) (B j) (Y j) (A (j + 1)%nat) (B (j + 1)%nat) (Y (j + 1)%nat) (S i) (C i) (S (i + 1)%nat) (C (i + 1)%nat).
  intros a b y a' b' y' s c s' c'. split; field.
Qed.
Lemma turned_means n m : S n * C n = S O * C O ->
  zsum m (fun j => zsum n (fun i => mean (turned_col A B Y S C) j i)) = - zsum m profile2 * zsum n (turn S C).
Proof.
  intros E. rewrite (zsum_ext m _ (fun j => - zsum n (turn S C) * profile2 j)); [rewrite zsum_scale; ring|]. intros j _.
  rewrite (zsum_ext n _ (fun i => - profile2 j * turn S C i + skew j * (Y (j + 1)%nat + Y j) / 2 * (S (i + 1)%nat * C (i + 1)%nat - S i * C i))) by (intros i _; apply turned_bent).
  rewrite zsum_add, !zsum_scale, (zsum_tele n (fun i => S i * C i)), E. ring.
Qed.
(** Diagonals that all run the same way, or alternate *)
Lemma turned_bends w v t n m : (forall j i, w j i = t * (v j * v i)) ->
  zsum m (fun j => zsum n (fun i => w j i * bend (turned_col A B Y S C) j i)) =
  - (t / 2) * zsum m (fun j => v j * (skew j * (Y (j + 1)%nat - Y j))) * zsum n (fun i => v i * step2 i).
Proof.
  intros E. rewrite (zsum_ext m _ (fun j => - (t / 2) * zsum n (fun i => v i * step2 i) * (v j * (skew j * (Y (j + 1)%nat - Y j))))); [rewrite zsum_scale; ring|]. intros j _.
  rewrite (zsum_ext n _ (fun i => - (t / 2) * (v j * (skew j * (Y (j + 1)%nat - Y j))) * (v i * step2 i))); [rewrite zsum_scale; ring|].
  intros i _. rewrite E. destruct (turned_bent i j) as [_ ->]. field.
Qed.
End TurnedBent.

(** Sums around a circle *)
Definition alternate (alt : bool) (i : nat) : R := if alt then (-1) ^ i else 1.
Lemma alternate_way alt j i : way O3 (diagonal alt) j i = -1 * (alternate alt j * alternate alt i).
Proof.
  unfold way, diagonal, alternate. destruct alt; cbn [negb orb xorb]; [|ring].
  assert (P : forall k, (-1) ^ k = if (k mod 2 =? 0)%nat then 1 else -1).
  { intros k. rewrite (Nat.div_mod k 2) at 1 by lia. rewrite pow_add, pow_mult. replace ((-1) ^ 2) with 1 by ring. rewrite pow1.
    pose proof (Nat.mod_upper_bound k 2 ltac:(lia)). destruct (k mod 2)%nat as [|[|r]]; cbn [Nat.eqb pow]; [ring|ring|lia]. }
  rewrite !P. pose proof (Nat.mod_upper_bound j 2 ltac:(lia)). pose proof (Nat.mod_upper_bound i 2 ltac:(lia)).
  destruct (j mod 2)%nat as [|[|r]]; [| |lia]; (destruct (i mod 2)%nat as [|[|r']]; [| |lia]); cbn; ring.
Qed.
Lemma chord_steps t s : (sin (t + s) - sin t) * (cos (t + s) - cos t) = - (2 * sin (s / 2) ^ 2) * sin (2 * t + s).
Proof.
  set (u := s / 2). replace s with (u + u) by (unfold u; field). pose (m := t + u). replace (t + (u + u)) with (m + u) by (unfold m; ring).
  replace (2 * t + (u + u)) with (m + m) by (unfold m; ring). replace t with (m - u) by (unfold m; ring).
  rewrite sin_minus, cos_minus, (sin_plus m u), (cos_plus m u), (sin_plus m m). replace ((u + u) / 2) with u by field. ring.
Qed.
Lemma full_pos n : (0 < n)%nat -> INR n * full n = 2 * PI.
Proof. intros H. unfold full, pi_2. field. apply not_0_INR. lia. Qed.
Lemma step_sum alt n : (3 <= n)%nat ->
  zsum n (fun i => alternate alt i * step2 (fun i => sin (at_angle 0 (full n) i)) (fun i => cos (at_angle 0 (full n) i)) i) = if alt && (n =? 4)%nat then - 4 else 0.
Proof.
  intros H. set (s := full n). set (f := fun i => alternate alt i * sin (2 * at_angle 0 s i + s)).
  assert (IN : 0 < INR n) by (apply lt_0_INR; lia). pose proof PI_RGT_0 as PP. pose proof (full_pos n ltac:(lia)) as FP. fold s in FP.
  assert (E : zsum n (fun i => alternate alt i * step2 (fun i => sin (at_angle 0 s i)) (fun i => cos (at_angle 0 s i)) i) = - (2 * sin (s / 2) ^ 2) * zsum n f).
  { rewrite <- zsum_scale. apply zsum_ext. intros i _. unfold step2, f. rewrite angle_next, chord_steps. ring. }
  rewrite E. clear E. destruct ((n =? 4)%nat) eqn:N4.
  - apply Nat.eqb_eq in N4. subst n. assert (S2 : s = PI / 2) by (cbn in FP; lra). destruct alt; cbn [andb].
    + assert (F : forall i, (i < 4)%nat -> f i = 1).
      { intros i Hi. unfold f, alternate, at_angle. rewrite S2. destruct i as [|[|[|[|k]]]]; [..|lia]; cbn [INR pow].
        - replace (2 * _ + _) with (PI / 2) by field. rewrite sin_PI2. ring.
        - replace (2 * _ + _) with (PI / 2 + PI) by field. rewrite neg_sin, sin_PI2. ring.
        - replace (2 * _ + _) with (PI / 2 + 2 * PI) by field. rewrite sin_plus, sin_2PI, cos_2PI, sin_PI2. ring.
        - replace (2 * _ + _) with (PI / 2 + PI + 2 * PI) by field. rewrite sin_plus, sin_2PI, cos_2PI, neg_sin, sin_PI2. ring. }
      rewrite (zsum_ext 4 f (fun _ => 1) F), zsum_const. rewrite S2. replace (PI / 2 / 2) with (PI / 4) by field. rewrite sin_PI4.
      assert (Q : sqrt 2 * sqrt 2 = 2) by (apply sqrt_def; lra). assert (sqrt 2 <> 0) by (intros Z; rewrite Z in Q; lra).
      replace (2 * (1 / sqrt 2) ^ 2) with (2 / (sqrt 2 * sqrt 2)) by (field; assumption). rewrite Q. cbn [INR]. field.
    + assert (F : forall i, (i < 4)%nat -> f i = (-1) ^ i).
      { intros i Hi. unfold f, alternate, at_angle. rewrite S2. destruct i as [|[|[|[|k]]]]; [..|lia]; cbn [INR pow].
        - replace (2 * _ + _) with (PI / 2) by field. rewrite sin_PI2. ring.
        - replace (2 * _ + _) with (PI / 2 + PI) by field. rewrite neg_sin, sin_PI2. ring.
        - replace (2 * _ + _) with (PI / 2 + 2 * PI) by field. rewrite sin_plus, sin_2PI, cos_2PI, sin_PI2. ring.
        - replace (2 * _ + _) with (PI / 2 + PI + 2 * PI) by field. rewrite sin_plus, sin_2PI, cos_2PI, neg_sin, sin_PI2. ring. }
      rewrite (zsum_ext 4 f _ F). unfold zsum. cbn. ring.
  - apply Nat.eqb_neq in N4. rewrite andb_false_r.
    assert (T : at_angle 0 s n = 2 * PI) by (unfold at_angle; lra). assert (T0 : at_angle 0 s 0 = 0) by (unfold at_angle; cbn; lra).
    assert (I3 : 3 <= INR n) by (replace 3 with (INR 3) by (cbn; ring); apply le_INR; lia). assert (S0 : 0 < s) by nra.
    assert (SP : s < PI) by nra.
    assert (Z : zsum n f = 0); [|rewrite Z; ring]. destruct alt.
    + assert (C : cos s <> 0).
      { destruct (Nat.lt_ge_cases n 4) as [L|G].
        - assert (I : INR n <= 3) by (replace 3 with (INR 3) by (cbn; ring); apply le_INR; lia). apply Rlt_not_eq, cos_lt_0; nra.
        - assert (I : 5 <= INR n) by (replace 5 with (INR 5) by (cbn; ring); apply le_INR; lia). apply Rgt_not_eq, cos_gt_0; nra. }
      assert (Q : 2 * cos s * zsum n f = 0); [|apply Rmult_integral in Q; destruct Q; [lra|assumption]].
      rewrite <- zsum_scale. set (F := fun i => - ((-1) ^ i * sin (2 * at_angle 0 s i))).
      rewrite (zsum_ext n _ (fun i => F (i + 1)%nat - F i)).
      * rewrite (zsum_tele n F). unfold F. rewrite T, T0. replace (2 * (2 * PI)) with (2 * PI + 2 * PI) by ring. rewrite Rmult_0_r, sin_plus, sin_2PI, sin_0. ring.
      * intros i _. unfold F, f, alternate. rewrite angle_next, pow_add, pow_1. set (a := at_angle 0 s i).
        replace (2 * (a + s)) with (2 * a + s + s) by ring. replace (sin (2 * a)) with (sin (2 * a + s - s)) by (f_equal; ring). generalize (2 * a + s). intros b. rewrite sin_plus, sin_minus. ring.
    + assert (C : sin s <> 0) by (apply Rgt_not_eq, sin_gt_0; assumption).
      assert (Q : 2 * sin s * zsum n f = 0); [|apply Rmult_integral in Q; destruct Q; [lra|assumption]].
      rewrite <- zsum_scale. set (F := fun i => - cos (2 * at_angle 0 s i)).
      rewrite (zsum_ext n _ (fun i => F (i + 1)%nat - F i)).
      * rewrite (zsum_tele n F). unfold F. rewrite T, T0. replace (2 * (2 * PI)) with (2 * PI + 2 * PI) by ring. rewrite Rmult_0_r, cos_plus, cos_2PI, sin_2PI, cos_0. ring.
      * intros i _. unfold F, f, alternate. rewrite angle_next. set (a := at_angle 0 s i).
        replace (2 * (a + s)) with (2 * a + s + s) by ring. replace (cos (2 * a)) with (cos (2 * a + s - s)) by (f_equal; ring). generalize (2 * a + s). intros b. rewrite cos_plus, cos_minus. ring.
Qed.
Lemma torus_profile Rx Rz tx ty tz V : (0 < V)%nat ->
  zsum V (profile2 (fun i => Rx + sin (at_angle 0 (full V) i) * tx) (fun i => Rz + sin (at_angle 0 (full V) i) * tz) (fun i => cos (at_angle 0 (full V) i) * ty)) =
  - (3 / 2 * (Rx * tz + Rz * tx) * ty * (INR V * sin (full V))).
Proof.
  intros PV. set (th := at_angle 0 (full V)). set (s := full V). set (W := (Rx * tz + Rz * tx) / 2).
  rewrite (zsum_ext V _ (fun i => ty * (2 * Rx * Rz * (cos (th (i + 1)%nat) - cos (th i)) + W * (sin (th (i + 1)%nat) * cos (th (i + 1)%nat) - sin (th i) * cos (th i))
    + tx * tz * (2 * cos (s / 2) ^ 2) * (cos (th (i + 1)%nat) - cos (th i)) + - (3 * W * sin s)))).
  - rewrite zsum_scale, !zsum_add, !zsum_scale, zsum_const, (zsum_tele V (fun i => cos (th i))), (zsum_tele V (fun i => sin (th i) * cos (th i))).
    unfold th. destruct (full_sin V PV) as [-> ->]. unfold W. field.
  - intros i _. unfold profile2, cross_mean. pose proof (half_chord (th i) s) as HC. pose proof (turn_det (th i) s) as TD.
    replace (th (i + 1)%nat) with (th i + s) by (symmetry; apply angle_next). set (a := th i) in *. clearbody a s. clear PV th.
    set (c := cos a) in *. set (c' := cos (a + s)) in *. set (u := sin a) in *. set (u' := sin (a + s)) in *.
    transitivity (ty * (2 * Rx * Rz * (c' - c) + W * (u' * c' - u * c) - tx * tz * (sin s * (u + u')) - 3 * W * sin s)).
    + rewrite <- TD. unfold W. clearbody c c' u u'. clear HC TD. field.
    + rewrite HC. ring.
Qed.
Lemma torus_vsum d : fold_right Rplus 0 (map patch_vsum (patches (DTorus d))) =
  let U := Nat.max 3 (to_u d) in let V := Nat.max 3 (to_v d) in
  3 / 2 * (x2 (to_ring d) * vz (to_tube d) + y2 (to_ring d) * vx (to_tube d)) * vy (to_tube d) * (INR V * sin (full V)) * (INR U * sin (full U)) +
  (if to_alt d && (U =? 4)%nat && (V =? 4)%nat then 8 * (x2 (to_ring d) * vz (to_tube d) - y2 (to_ring d) * vx (to_tube d)) * vy (to_tube d) else 0).
Proof.
  cbn [patches]. set (U := Nat.max 3 (to_u d)). set (V := Nat.max 3 (to_v d)). assert (HV : (3 <= V)%nat) by (unfold V; lia). assert (HU : (3 <= U)%nat) by (unfold U; lia). clearbody U V. cbv zeta. cbn [map fold_right].
  set (A := fun i => x2 (to_ring d) + sin (at_angle 0 (full V) i) * vx (to_tube d)). set (B := fun i => y2 (to_ring d) + sin (at_angle 0 (full V) i) * vz (to_tube d)).
  set (Y := fun i => cos (at_angle 0 (full V) i) * vy (to_tube d)). set (S := fun j => sin (at_angle 0 (full U) j)). set (C := fun j => cos (at_angle 0 (full U) j)).
  rewrite (patch_vsum_at _ (turned_col A B Y S C)).
  - cbn [p_tris]. rewrite bent_grid, turned_means.
    + rewrite (turned_bends A B Y S C _ (alternate (to_alt d)) (-1)) by apply alternate_way.
      unfold A, B, Y at 1. rewrite torus_profile by lia. unfold S, C. rewrite turn_sc, step_sum by lia.
      rewrite (zsum_ext V _ (fun j => (x2 (to_ring d) * vz (to_tube d) - y2 (to_ring d) * vx (to_tube d)) * vy (to_tube d) *
        (alternate (to_alt d) j * step2 (fun i => sin (at_angle 0 (full V) i)) (fun i => cos (at_angle 0 (full V) i)) j))) by (intros j _; unfold skew, step2, Y; ring).
      rewrite zsum_scale, step_sum by lia. cbn [sign]. destruct (to_alt d); cbn [andb]; [|field]. destruct (U =? 4)%nat, (V =? 4)%nat; cbn [andb]; field.
    + unfold S, C. destruct (full_sin U ltac:(lia)) as [-> ->]. reflexivity.
  - intros i j. cbn [p_at fst snd]. unfold turned_col, turned_point, torus_vertex. cbn [position].
    replace (frac i V * pi_2) with (at_angle 0 (full V) i) by (unfold frac, at_angle, full; ring).
    replace (frac j U * pi_2) with (at_angle 0 (full U) j) by (unfold frac, at_angle, full; ring). apply vec3_ext; cbn [vx vy vz]; unfold A, B, Y, S, C; ring.
Qed.

(** Faces of a cuboid *)
Lemma det_turned X Y Z a b c : let T := fun p => vadd (vadd (vscale (vx p) X) (vscale (vy p) Y)) (vscale (vz p) Z) in det (T a) (T b) (T c) = det X Y Z * det a b c.
Proof. destruct X as [x1 x2 x3], Y as [y1 y2 y3], Z as [z1 z2 z3], a as [a1 a2 a3], b as [b1 b2 b3], c as [c1 c2 c3]. cbv zeta beta. unfold det. vecs. ring. Qed.
Lemma face_vsum alt rot sh sv soz H V : turned rot -> (0 < H)%nat -> (0 < V)%nat -> patch_vsum (face_patch alt rot sh sv soz H V) = - soz * (sh * sv).
Proof.
  intros T PH PV. destruct (turned_axes rot T) as (X & Y & Z & E & XY & _ & _ & ZZ).
  assert (D : det X Y Z = 1) by (rewrite det_rot, det_rot; unfold det; rewrite XY; exact ZZ).
  pose (p := fun i j => V3 (sh * frac j H - sh / 2) (sv * frac i V - sv / 2) (soz / 2)).
  set (q := fun i j => vadd (vadd (vscale (vx (p i j)) X) (vscale (vy (p i j)) Y)) (vscale (vz (p i j)) Z)).
  rewrite (patch_vsum_at _ q) by (intros i j; cbn [p_at face_patch position face_vertex fst snd]; apply E).
  assert (Q : forall i j, quad q i j = (- soz * (sh * sv) * (1 / INR H)) * (1 / INR V)
    /\ other q i j = (- soz * (sh * sv) * (1 / INR H)) * (1 / INR V)).
  { intros i j. unfold quad, other, q. rewrite !det_turned, D. unfold p, det. vecs. rewrite !frac_next. split; field; split; apply not_0_INR; lia. }
  cbn [p_tris face_patch]. rewrite (grid_vsum q) by (intros i j _ _; destruct (Q i j) as [-> ->]; reflexivity).
  unfold quads. rewrite (zsum_ext V _ (fun _ => - soz * (sh * sv) * (1 / INR V))).
  - rewrite zsum_const. cbn [sign]. field. apply not_0_INR. lia.
  - intros i _. rewrite (zsum_ext H _ (fun _ => (- soz * (sh * sv) * (1 / INR H)) * (1 / INR V))) by (intros; apply Q). rewrite zsum_const. field. split; apply not_0_INR; lia.
Qed.

(** ** All solids *)
Lemma full_sector n : (0 < n)%nat -> INR n * sin (full n) = 2 * ngon n.
Proof. intros P. unfold ngon, sector, full, pi_2. replace (1 / INR n * (PI * 2)) with (2 * PI / INR n) by (field; apply not_0_INR; lia). field. Qed.
Lemma clamp_remaining d : pi_2 - clampR (pi_angle d) 0 pi_2 = remaining d.
Proof.
  pose proof PI_RGT_0. unfold remaining, clampR, pi_2. unfold Rltb. destruct (Rlt_dec (pi_angle d) 0) as [L|L].
  - rewrite Rmax_right, Rmin_left by lra. ring.
  - rewrite Rmax_left by lra. destruct (Rlt_dec (PI * 2) (pi_angle d)) as [G|G]; [rewrite Rmin_right by lra|rewrite Rmin_left by lra]; ring.
Qed.
Lemma when_true {A} k (p : A) : k <> O -> when (0 <? k)%nat p = cons p nil.
Proof. intros H. unfold when. replace (0 <? k)%nat with true by (symmetry; apply Nat.ltb_lt; lia). reflexivity. Qed.

Lemma surface_volume d : measured d -> volume (map (tmap position) (surface d)) = mesh_volume d.
Proof.
  intros [S M]. rewrite vsum_volume. unfold surface. rewrite patches_vsum. destruct d as [d|d|d|d|d|d|d|d|d|d|d|d]; try contradiction; cbn [solid] in S; cbn [mesh_volume].
  - cbn [patches]. cbv zeta. cbn [map fold_right]. rewrite !face_vsum by (try lia; first [apply turned_1|apply turned_x|apply turned_y]). field.
  - rewrite ellipsoid_vsum. cbv zeta. rewrite full_sector by lia. field.
  - cbn [patches]. cbv zeta. rewrite when_true by assumption. cbn [map fold_right].
    rewrite cone_mantle_vsum, disc_part_vsum by (reflexivity || lia). fold (full (Nat.max 3 (co_u d))). rewrite full_sector by lia. field.
  - destruct S as [T B]. cbn [patches]. cbv zeta. rewrite !when_true by assumption. cbn [map fold_right app].
    rewrite mantle_vsum, !disc_part_vsum by lia. fold (full (Nat.max 3 (cy_u d))). rewrite full_sector by lia. field.
  - cbn [patches]. cbv zeta. rewrite !when_true by assumption. cbn [map fold_right app].
    rewrite mantle_vsum, !disc_part_vsum, !wall_vsum by lia. rewrite clamp_remaining. unfold sector.
    replace (1 / INR (Nat.max 3 (pi_u d)) * remaining d) with (remaining d / INR (Nat.max 3 (pi_u d))) by (field; apply not_0_INR; lia). field. 
  - destruct S as [T B]. cbn [patches]. cbv zeta. rewrite !when_true by assumption. cbn [map fold_right app].
    fold (full (Nat.max 3 (pp_u d))). rewrite !mantle_vsum, !ring_vsum by lia. rewrite full_sector by lia. field.
  - cbn [patches]. cbv zeta. cbn [map fold_right app]. rewrite mantle_vsum, !cap_vsum by (lia || auto). fold (full (Nat.max 3 (ca_u d))). rewrite full_sector by lia. field.
  - rewrite torus_vsum. unfold bent_torus. cbv zeta. rewrite !full_sector by lia. destruct (to_alt d && _ && _); field.
Qed.
Lemma volume_holds d m m' : valid d -> (Z.of_nat (vertex_count d) <= 2 ^ 32)%Z -> measured d -> generate d m = Ok m' ->
  volume (geometry m' (new_triangles m m')) = mesh_volume d.
Proof. intros W L M G. rewrite (geometry_surface d m m' W L G). now apply surface_volume. Qed.

(** ** How much the polygons lack *)
Lemma Rdiv_le_0_compat a b : 0 <= a -> 0 < b -> 0 <= a / b.
Proof. intros A B. apply Rmult_le_pos; [assumption|]. now apply Rlt_le, Rinv_0_lt_compat. Qed.
Lemma sin_below x : 0 <= x -> sin x <= x.
Proof. intros [H| <-]; [now apply Rlt_le, sin_lt_x|rewrite sin_0; lra]. Qed.
Lemma sin_above x : 0 <= x <= 4 -> x * (1 - x ^ 2 / 6) <= sin x.
Proof.
  intros [A B]. destruct (pre_sin_bound x 0 A B) as [L _]. eapply Rle_trans; [|exact L]. apply Req_le.
  unfold sin_approx, sin_term. cbn [Nat.mul Nat.add sum_f_R0]. cbn [fact Nat.mul Nat.add]. cbn [pow]. replace (INR 6) with 6 by (cbn; ring). cbn [INR]. field.
Qed.
Lemma cos2_bounds x : 0 <= x -> 1 - x ^ 2 <= cos x ^ 2 <= 1.
Proof.
  intros H. pose proof (sc2 x) as E. assert (Q : cos x ^ 2 = 1 - sin x ^ 2) by (cbn [pow]; rewrite <- E; unfold Rsqr; ring).
  rewrite Q. split; [|nra]. assert (sin x ^ 2 <= x ^ 2); [|lra]. pose proof (sin_below x H). destruct (Rle_dec 1 x) as [L|L].
  - pose proof (SIN_bound x). nra.
  - assert (0 <= sin x) by (apply sin_ge_0; [assumption|]; pose proof PI2_3_2; unfold Rdiv in *; lra). nra.
Qed.
Definition arc (n : nat) : R := 2 * PI ^ 2 / (3 * INR n ^ 2).
Lemma arc_pos n : (0 < n)%nat -> 0 <= arc n.
Proof. intros H. unfold arc. pose proof PI_RGT_0. assert (0 < INR n) by (now apply lt_0_INR). apply Rlt_le, Rdiv_lt_0_compat; [nra|]. apply Rmult_lt_0_compat; [lra|]. apply pow_lt. assumption. Qed.
Lemma sector_bounds n a : (3 <= n)%nat -> 0 <= a <= 2 * PI -> a / 2 * (1 - arc n) <= sector n a <= a / 2.
Proof.
  intros H [A B]. assert (N : 3 <= INR n) by (apply (le_INR 3) in H; cbn in H; lra). pose proof PI_RGT_0. pose proof PI_4. unfold sector.
  set (x := a / INR n). assert (E : a = INR n * x) by (unfold x; field; lra). assert (X : 0 <= x) by (unfold x; apply Rdiv_le_0_compat; lra).
  assert (X4 : x <= 4) by nra.
  split.
  - apply Rle_trans with (INR n / 2 * (x * (1 - x ^ 2 / 6))); [|apply Rmult_le_compat_l; [lra|now apply sin_above]].
    rewrite E at 1. replace (INR n * x / 2 * (1 - arc n)) with (INR n / 2 * (x * (1 - arc n))) by field. apply Rmult_le_compat_l; [lra|]. apply Rmult_le_compat_l; [assumption|].
    assert (x ^ 2 / 6 <= arc n); [|lra]. unfold arc. apply Rle_trans with ((2 * PI / INR n) ^ 2 / 6).
    + apply Rmult_le_compat_r; [lra|]. apply pow_incr. split; [assumption|]. unfold x. apply Rmult_le_compat_r; [apply Rlt_le, Rinv_0_lt_compat; lra|assumption].
    + apply Req_le. field. lra.
  - rewrite E at 1. replace (INR n * x / 2) with (INR n / 2 * x) by field. apply Rmult_le_compat_l; [lra|now apply sin_below].
Qed.
Lemma ngon_bounds n : (3 <= n)%nat -> PI * (1 - arc n) <= ngon n <= PI.
Proof. intros H. pose proof PI_RGT_0. destruct (sector_bounds n (2 * PI) H ltac:(lra)) as [A B]. unfold ngon. lra. Qed.
Lemma sector_pos n a : (3 <= n)%nat -> 0 < a <= 2 * PI -> 0 < sector n a.
Proof.
  intros H [A B]. assert (N : 3 <= INR n) by (apply (le_INR 3) in H; cbn in H; lra). pose proof PI_RGT_0. unfold sector. apply Rmult_lt_0_compat; [lra|].
  apply sin_gt_0; [apply Rdiv_lt_0_compat; lra|]. apply Rmult_lt_reg_r with (INR n); [lra|]. unfold Rdiv. rewrite Rmult_assoc, Rinv_l, Rmult_1_r by lra. nra.
Qed.
Lemma ngon_pos n : (3 <= n)%nat -> 0 < ngon n.
Proof. intros H. pose proof PI_RGT_0. apply sector_pos; [assumption|lra]. Qed.

(** k * x * y between k * X * Y and that less the parts that x and y lack *)
Lemma bounds1 k x X e : 0 <= k -> X * (1 - e) <= x <= X -> k * X * (1 - e) <= k * x <= k * X.
Proof. intros K [A B]. split; [rewrite Rmult_assoc|]; now apply Rmult_le_compat_l. Qed.
Lemma bounds2 k x X e y Y f : 0 <= k -> 0 <= x -> 0 <= y -> 0 <= X -> 0 <= e -> 0 <= f -> 0 <= Y -> X * (1 - e) <= x <= X -> Y * (1 - f) <= y <= Y -> k * X * Y * (1 - (e + f)) <= k * x * y <= k * X * Y.
Proof.
  intros K PX PY QX PE PF QY [A B] [C D]. assert (G : X * Y * (1 - (e + f)) <= x * y <= X * Y).
  { split; [|apply Rmult_le_compat; lra]. destruct (Rle_dec (1 - (e + f)) 0) as [N|N]; [assert (0 <= x * y) by nra; assert (0 <= X * Y) by nra; nra|].
    apply Rle_trans with (X * (1 - e) * (Y * (1 - f))); [|apply Rmult_le_compat; try lra; apply Rmult_le_pos; lra].
    assert (0 <= X * Y) by nra. assert (0 <= X * Y * (e * f)) by (apply Rmult_le_pos; [assumption|nra]). nra. }
  rewrite !Rmult_assoc. rewrite !Rmult_assoc in G. split; now apply Rmult_le_compat_l.
Qed.
Lemma cos2_part c n : 0 < c -> (2 <= n)%nat -> 1 * (1 - PI ^ 2 / (c ^ 2 * INR n ^ 2)) <= cos (PI / (c * INR n)) ^ 2 <= 1.
Proof.
  intros C H. assert (N : 2 <= INR n) by (apply (le_INR 2) in H; cbn in H; lra). pose proof PI_RGT_0.
  destruct (cos2_bounds (PI / (c * INR n))) as [A B]; [apply Rdiv_le_0_compat; [lra|nra]|]. split; [|assumption].
  replace (PI ^ 2 / (c ^ 2 * INR n ^ 2)) with ((PI / (c * INR n)) ^ 2) by (field; lra). lra.
Qed.
Lemma cos2_lack c n : 0 < c -> (2 <= n)%nat -> 0 <= PI ^ 2 / (c ^ 2 * INR n ^ 2).
Proof.
  intros C H. assert (N : 2 <= INR n) by (apply (le_INR 2) in H; cbn in H; lra). pose proof PI_RGT_0. apply Rdiv_le_0_compat; [nra|]. apply Rmult_lt_0_compat; nra.
Qed.

Lemma remaining_bounds d : 0 <= remaining d <= 2 * PI.
Proof. pose proof PI_RGT_0. unfold remaining. unfold Rmin, Rmax. destruct (Rle_dec (pi_angle d) 0); destruct (Rle_dec _ (2 * PI)); lra. Qed.

Lemma mesh_volume_bounds d : measured d -> positive_extents d -> exact_volume d * (1 - lacks d) <= mesh_volume d <= exact_volume d.
Proof.
  intros [_ M] P. pose proof PI_RGT_0 as PP. destruct d as [d|d|d|d|d|d|d|d|d|d|d|d]; try contradiction; cbn [positive_extents] in P; cbn [exact_volume mesh_volume lacks]; unfold positive2, positive3 in P.
  - rewrite Rminus_0_r, Rmult_1_r. lra.
  - destruct P as (X & Y & Z). fold (arc (Nat.max 3 (el_u d))). set (k := vx (el_radius d) * vy (el_radius d) * vz (el_radius d)). assert (K : 0 <= 4 / 3 * k) by (unfold k; apply Rmult_le_pos; [lra|]; apply Rlt_le; repeat apply Rmult_lt_0_compat; assumption).
    replace (4 / 3 * PI * k) with (4 / 3 * k * PI * 1) by ring. replace 4 with (2 ^ 2) at 2 by ring. apply bounds2; try assumption; try lra.
    + apply Rlt_le, ngon_pos. lia.
    + apply pow2_ge_0.
    + apply arc_pos. lia.
    + apply cos2_lack; [lra|lia].
    + apply ngon_bounds. lia.
    + apply cos2_part; [lra|lia].
  - destruct P as (Y & X & Z). fold (arc (Nat.max 3 (co_u d))).
    replace (1 / 3 * PI * (x2 (co_radius d) * y2 (co_radius d)) * co_height d) with (1 / 3 * (x2 (co_radius d) * y2 (co_radius d)) * co_height d * PI) by ring.
    apply bounds1; [apply Rlt_le; repeat apply Rmult_lt_0_compat; lra|apply ngon_bounds; lia].
  - destruct P as (Y & X & Z). fold (arc (Nat.max 3 (cy_u d))).
    replace (PI * (x2 (cy_radius d) * y2 (cy_radius d)) * cy_height d) with (x2 (cy_radius d) * y2 (cy_radius d) * cy_height d * PI) by ring.
    apply bounds1; [apply Rlt_le; repeat apply Rmult_lt_0_compat; lra|apply ngon_bounds; lia].
  - destruct P as (Y & X & Z). fold (arc (Nat.max 3 (pi_u d))).
    replace (remaining d / 2 * (x2 (pi_radius d) * y2 (pi_radius d)) * pi_height d) with (x2 (pi_radius d) * y2 (pi_radius d) * pi_height d * (remaining d / 2)) by ring.
    apply bounds1; [apply Rlt_le; repeat apply Rmult_lt_0_compat; lra|apply sector_bounds; [lia|apply remaining_bounds]].
  - destruct P as (Y & (X & Z) & XX & ZZ). fold (arc (Nat.max 3 (pp_u d))). set (k := x2 (pp_outer d) * y2 (pp_outer d) - x2 (pp_inner d) * y2 (pp_inner d)). assert (K : 0 < k) by (unfold k; nra).
    replace (PI * k * pp_height d) with (k * pp_height d * PI) by ring. apply bounds1; [apply Rlt_le, Rmult_lt_0_compat; assumption|apply ngon_bounds; lia].
  - destruct P as (Y & (X & Z & W)). fold (arc (Nat.max 3 (ca_u d))). set (rx := vx (ca_radius d)) in *. set (ry := vy (ca_radius d)) in *. set (rz := vz (ca_radius d)) in *. set (h := ca_height d) in *.
    set (C := Nat.max 2 (ca_cap d)). set (H := Nat.max 3 (ca_u d)). destruct (cos2_part 4 C) as [A B]; [lra|unfold C; lia|]. replace (4 ^ 2) with 16 in * by ring.
    assert (L : 0 <= PI ^ 2 / (16 * INR C ^ 2)) by (pose proof (cos2_lack 4 C ltac:(lra) ltac:(unfold C; lia)) as Q; replace (4 ^ 2) with 16 in Q by ring; exact Q).
    set (l := PI ^ 2 / (16 * INR C ^ 2)) in *. set (c := cos (PI / (4 * INR C)) ^ 2) in *. assert (C0 : 0 <= c) by apply pow2_ge_0. clearbody c l.
    replace (rx * rz * (h + 4 / 3 * ry * c) * ngon H) with (rx * rz * ngon H * (h + 4 / 3 * ry * c)) by ring.
    replace (PI * (rx * rz) * (h + 4 / 3 * ry)) with (rx * rz * PI * (h + 4 / 3 * ry)) by ring.
    apply bounds2; try assumption; try lra; try nra.
    + apply Rlt_le, ngon_pos. unfold H. lia.
    + apply arc_pos. unfold H. lia.
    + apply ngon_bounds. unfold H. lia.
  - destruct P as ((X & Z) & A & B & C). fold (arc (Nat.max 3 (to_u d))) (arc (Nat.max 3 (to_v d))). unfold bent_torus.
    set (k := (x2 (to_ring d) * vz (to_tube d) + y2 (to_ring d) * vx (to_tube d)) * vy (to_tube d)).
    assert (K : 0 <= k) by (unfold k; apply Rmult_le_pos; [apply Rplus_le_le_0_compat; nra|lra]).
    replace (PI ^ 2 * (x2 (to_ring d) * vz (to_tube d) + y2 (to_ring d) * vx (to_tube d)) * vy (to_tube d)) with (k * PI * PI) by (unfold k; ring).
    destruct (to_alt d && _ && _) eqn:F.
    + apply andb_true_iff in F. destruct F as [F E2]. apply andb_true_iff in F. destruct F as [_ E1]. apply Nat.eqb_eq in E1, E2. rewrite E1, E2.
      set (l := (x2 (to_ring d) * vz (to_tube d) - y2 (to_ring d) * vx (to_tube d)) * vy (to_tube d)).
      assert (KL : - k <= l <= k).
      { unfold k, l. assert (0 <= x2 (to_ring d) * vz (to_tube d)) by nra. assert (0 <= y2 (to_ring d) * vx (to_tube d)) by nra. split; nra. }
      replace (4 / 3 * (x2 (to_ring d) * vz (to_tube d) - y2 (to_ring d) * vx (to_tube d)) * vy (to_tube d)) with (4 / 3 * l) by (unfold l; ring).
      assert (G : ngon 4 = 2). { unfold ngon, sector. replace (2 * PI / INR 4) with (PI / 2) by (cbn; field). rewrite sin_PI2. cbn. field. }
      rewrite G. unfold arc. pose proof PI_4. pose proof PI2_3_2 as P3. clearbody k l.
      assert (P9 : 9 <= PI * PI <= 16) by nra. replace (INR 4) with 4 by (cbn; ring). split; [|nra].
      replace (k * PI * PI * (1 - (2 * PI ^ 2 / (3 * 4 ^ 2) + 2 * PI ^ 2 / (3 * 4 ^ 2)))) with (k * ((PI * PI) * (1 - PI * PI / 12))) by field.
      set (x := PI * PI) in *. clearbody x. assert (x * (1 - x / 12) <= 9 / 4) by nra. apply Rle_trans with (k * (9 / 4)); [|lra]. apply Rmult_le_compat_l; assumption.
    + rewrite Rplus_0_r. apply bounds2; try assumption; try lra; try (apply Rlt_le, ngon_pos; lia); try (apply arc_pos; lia); apply ngon_bounds; lia.
Qed.
Lemma lacks_bounds d : 0 <= lacks d.
Proof.
  destruct d as [d|d|d|d|d|d|d|d|d|d|d|d]; cbn [lacks]; try lra; repeat match goal with |- context [2 * PI ^ 2 / (3 * INR ?n ^ 2)] => fold (arc n) end; try (apply arc_pos; lia).
  - apply Rplus_le_le_0_compat; [apply arc_pos; lia|]. pose proof (cos2_lack 2 (Nat.max 2 (el_v d)) ltac:(lra) ltac:(lia)) as Q. replace (2 ^ 2) with 4 in Q by ring. exact Q.
  - apply Rplus_le_le_0_compat; [apply arc_pos; lia|]. pose proof (cos2_lack 4 (Nat.max 2 (ca_cap d)) ltac:(lra) ltac:(lia)) as Q. replace (4 ^ 2) with 16 in Q by ring. exact Q.
  - apply Rplus_le_le_0_compat; apply arc_pos; lia.
Qed.

(** ** The origin does not matter *)
Lemma volume_moved l v : closed l -> volume (map (tmap (vadd v)) l) = volume l.
Proof.
  intros C. pose (w := fun p q => dot v (cross p q)). assert (A : forall p q, w p q = - w q p) by (intros; unfold w; vecs; ring).
  pose proof (closed_esum l w A C) as E. assert (D : volume (map (tmap (vadd v)) l) = volume l + esum w l / 6); [|lra].
  clear C E. unfold volume, esum. induction l as [|[[a b] c] l IH]; cbn [map fold_right]; [lra|]. rewrite IH.
  assert (D : tetrahedron (tmap (vadd v) (a, b, c)) = tetrahedron (a, b, c) + tsum w (a, b, c) / 6); [|lra].
  cbn [tmap tetrahedron tsum]. unfold w. vecs. field.
Qed.
