(** Volumes of the parts of a mesh that is cut. *)
From Coq Require Import ZArith Reals List Bool Arith Lra Lia Psatz.
From Verif Require Import Model.Scalar Model.Vec Model.Ext Model.Plane Model.Mesh Model.Interp Model.Clip.
From Verif Require Import Spec.PlaneSpec Spec.MeshSpec Spec.InterpSpec Spec.ClipSpec Spec.ClipAreaSpec Spec.ClosedSpec Spec.CutSpec.
From Verif Require Spec.MeshGenSpec Spec.VolumeSpec.
From Verif Require Import Proofs.VecLemmas Proofs.PlaneLemmas Proofs.InterpLemmas Proofs.MeshLemmas2 Proofs.ClipLemmas Proofs.ClipMesh Proofs.ClipAreaLemmas Proofs.CutLemmas.
Import ListNotations.
Local Open Scope R_scope.

(** Real sums over directed edges *)
Definition resum (g : vec3 -> vec3 -> R) (l : list (vec3 * vec3)) : R := rsum (map (fun e => g (fst e) (snd e)) l).
Lemma resum_app g l k : resum g (l ++ k) = resum g l + resum g k.
Proof. unfold resum. now rewrite map_app, rsum_app. Qed.
Lemma real_balanced g : (forall x y, g y x = - g x y) -> forall n l, (length l <= n)%nat -> (forall x y, g x y <> 0 -> cnt l (x, y) = cnt l (y, x)) -> resum g l = 0.
Proof.
  intros A. induction n as [|n IH]; intros l L B; [destruct l; [reflexivity|cbn in L; lia]|].
  destruct l as [|[x y] l]; [reflexivity|]. cbn in L. change (resum g ((x, y) :: l)) with (g x y + resum g l).
  destruct (Req_EM_T (g x y) 0) as [Z0|N0].
  - rewrite Z0. rewrite IH; [ring|lia|]. intros u v N. specialize (B u v N). cbn [count_occ] in B.
    destruct (edge_dec (x, y) (u, v)) as [E|]; [injection E as -> ->; congruence|].
    destruct (edge_dec (x, y) (v, u)) as [E|]; [injection E as -> ->; specialize (A v u); lra|exact B].
  - assert (D : x <> y) by (intros ->; specialize (A y y); lra).
    pose proof (B x y N0) as Bxy. cbn [count_occ] in Bxy. destruct (edge_dec (x, y) (x, y)) as [_|]; [|congruence].
    destruct (edge_dec (x, y) (y, x)) as [E|_]; [congruence|].
    assert (I : In (y, x) l) by (apply (count_occ_In edge_dec); lia).
    destruct (in_split _ _ I) as (l1 & l2 & ->). rewrite resum_app. change (resum g ((y, x) :: l2)) with (g y x + resum g l2).
    assert (S : resum g (l1 ++ l2) = 0).
    { apply IH; [rewrite app_length in *; cbn in L; lia|]. intros u v N. specialize (B u v N). cbn [count_occ] in B. rewrite !cnt_app in *. cbn [count_occ] in B.
      destruct (edge_dec (x, y) (u, v)) as [E1|E1], (edge_dec (x, y) (v, u)) as [E2|E2], (edge_dec (y, x) (u, v)) as [E3|E3], (edge_dec (y, x) (v, u)) as [E4|E4]; try congruence; try lia. }
    rewrite resum_app in S. specialize (A x y). lra.
Qed.

(** The change of the volume when the point moves is a sum over the directed edges. *)
Definition twist (w x y : vec3) : R := dot w (cross x y) / 6.
Lemma volume_from_move p q l : volume_from q l = volume_from p l - resum (fun x y => twist (vsub q p) (vsub x p) (vsub y p)) (edges l).
Proof.
  unfold volume_from, VolumeSpec.volume. induction l as [|[[a b] c] l IH]; [cbn; ring|].
  change (edges ((a, b, c) :: l)) with ([(a, b); (b, c); (c, a)] ++ edges l). rewrite resum_app. unfold resum at 1, rsum. cbn [map fold_right fst snd MeshGenSpec.tmap]. rewrite IH.
  unfold VolumeSpec.tetrahedron, twist. destruct a as [a1 a2 a3], b as [b1 b2 b3], c as [c1 c2 c3], p as [p1 p2 p3], q as [q1 q2 q3]. unfold dot, cross, vsub. cbn [vx vy vz]. field.
Qed.
Lemma twist_flat pl p q x y : Plane.normal pl <> vzero -> on_plane false pl p -> on_plane false pl q -> on_plane false pl x -> on_plane false pl y -> twist (vsub q p) (vsub x p) (vsub y p) = 0.
Proof.
  unfold on_plane, side, twist. destruct pl as [[n1 n2 n3] d], p as [p1 p2 p3], q as [q1 q2 q3], x as [x1 x2 x3], y as [y1 y2 y3]. unfold dot, cross, vsub, vzero. cbn [Plane.normal Plane.distance vx vy vz].
  intros N P Q X Y. cut ((q1 - p1) * ((x2 - p2) * (y3 - p3) - (x3 - p3) * (y2 - p2)) + (q2 - p2) * ((x3 - p3) * (y1 - p1) - (x1 - p1) * (y3 - p3)) + (q3 - p3) * ((x1 - p1) * (y2 - p2) - (x2 - p2) * (y1 - p1)) = 0); [intros E; lra|].
  set (a1 := q1 - p1). set (a2 := q2 - p2). set (a3 := q3 - p3). set (b1 := x1 - p1). set (b2 := x2 - p2). set (b3 := x3 - p3). set (c1 := y1 - p1). set (c2 := y2 - p2). set (c3 := y3 - p3).
  assert (A : n1 * a1 + n2 * a2 + n3 * a3 = 0) by (unfold a1, a2, a3; lra). assert (B : n1 * b1 + n2 * b2 + n3 * b3 = 0) by (unfold b1, b2, b3; lra). assert (C : n1 * c1 + n2 * c2 + n3 * c3 = 0) by (unfold c1, c2, c3; lra).
  clearbody a1 a2 a3 b1 b2 b3 c1 c2 c3. clear P Q X Y. set (D := a1 * (b2 * c3 - b3 * c2) + a2 * (b3 * c1 - b1 * c3) + a3 * (b1 * c2 - b2 * c1)).
  assert (D1 : n1 * D = 0) by (unfold D; replace (n1 * (a1 * (b2 * c3 - b3 * c2) + a2 * (b3 * c1 - b1 * c3) + a3 * (b1 * c2 - b2 * c1))) with ((n1 * a1 + n2 * a2 + n3 * a3) * (b2 * c3 - b3 * c2) + (n1 * b1 + n2 * b2 + n3 * b3) * (c2 * a3 - c3 * a2) + (n1 * c1 + n2 * c2 + n3 * c3) * (a2 * b3 - a3 * b2)) by ring; rewrite A, B, C; ring).
  assert (D2 : n2 * D = 0) by (unfold D; replace (n2 * (a1 * (b2 * c3 - b3 * c2) + a2 * (b3 * c1 - b1 * c3) + a3 * (b1 * c2 - b2 * c1))) with ((n1 * a1 + n2 * a2 + n3 * a3) * (b3 * c1 - b1 * c3) + (n1 * b1 + n2 * b2 + n3 * b3) * (c3 * a1 - c1 * a3) + (n1 * c1 + n2 * c2 + n3 * c3) * (a3 * b1 - a1 * b3)) by ring; rewrite A, B, C; ring).
  assert (D3 : n3 * D = 0) by (unfold D; replace (n3 * (a1 * (b2 * c3 - b3 * c2) + a2 * (b3 * c1 - b1 * c3) + a3 * (b1 * c2 - b2 * c1))) with ((n1 * a1 + n2 * a2 + n3 * a3) * (b1 * c2 - b2 * c1) + (n1 * b1 + n2 * b2 + n3 * b3) * (c1 * a2 - c2 * a1) + (n1 * c1 + n2 * c2 + n3 * c3) * (a1 * b2 - a2 * b1)) by ring; rewrite A, B, C; ring).
  destruct (Req_EM_T D 0) as [Z|NZ]; [exact Z|]. exfalso. apply N. f_equal; nra.
Qed.
Lemma twist_anti w p x y : twist w (vsub y p) (vsub x p) = - twist w (vsub x p) (vsub y p).
Proof. unfold twist, dot, cross, vsub. cbn [vx vy vz]. field. Qed.

(** Triangles that are open only in the plane have a volume. *)
Lemma flat_border_volume pl p q l : Plane.normal pl <> vzero -> (forall x y, border l x y -> in_plane pl x y) -> on_plane false pl p -> on_plane false pl q -> volume_from p l = volume_from q l.
Proof.
  intros N B P Q. rewrite (volume_from_move p q l). rewrite (real_balanced _ (fun x y => twist_anti (vsub q p) p x y) (length (edges l))); [ring|lia|].
  intros x y T. destruct (Nat.eq_dec (uses l x y) (uses l y x)) as [E|NE]; [exact E|]. exfalso. apply T. destruct (B x y NE) as [X Y]. now apply (twist_flat pl).
Qed.
Lemma closed_volume p q l : closed l -> volume_from p l = volume_from q l.
Proof.
  intros C. rewrite (volume_from_move p q l). rewrite (real_balanced _ (fun x y => twist_anti (vsub q p) p x y) (length (edges l))); [ring|lia|]. intros x y _. apply C.
Qed.

Definition q_from (p a b c : vec3) : R := tri_volume (vsub a p) (vsub b p) (vsub c p).
Lemma combine3_shift w a b c p : bary w -> vsub (combine3 w a b c) p = combine3 w (vsub a p) (vsub b p) (vsub c p).
Proof.
  intros (_ & _ & _ & W). destruct w as [w1 w2 w3], a as [a1 a2 a3], b as [b1 b2 b3], c as [c1 c2 c3], p as [p1 p2 p3]. cbn [vx vy vz] in W. replace w1 with (1 - w2 - w3) by lra.
  unfold combine3, vadd, vsub, vscale. cbn [vx vy vz]. f_equal; ring.
Qed.
Lemma additive_from p : additive (q_from p).
Proof. intros a b c u v w U V W O. unfold q_from. rewrite !combine3_shift by assumption. now apply additive_volume. Qed.
Lemma total_from p m l : soup m l -> total (q_from p) m = volume_from p (faces m).
Proof.
  intros S. rewrite (total_soup _ _ _ S), (faces_soup _ _ S). unfold piece_sum, volume_from, VolumeSpec.volume, rsum. rewrite !map_map. f_equal. apply map_ext. now intros [[a b] c].
Qed.
