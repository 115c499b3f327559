(** The parts of a clipped mesh add up to it. *)
From Coq Require Import Reals List Bool Arith Lra Lia Psatz.
From Verif Require Import Model.Scalar Model.Vec Model.Ext Model.Plane Model.Mesh Model.Interp Model.Clip.
From Verif Require Import Spec.PlaneSpec Spec.MeshSpec Spec.InterpSpec Spec.ClipSpec Spec.ClipAreaSpec.
From Verif Require Import Proofs.VecLemmas Proofs.PlaneLemmas Proofs.InterpLemmas Proofs.MeshLemmas2 Proofs.ClipLemmas Proofs.ClipMesh.
Import ListNotations.
Local Open Scope R_scope.

Definition rsum (l : list R) : R := fold_right Rplus 0 l.
Lemma rsum_app l k : rsum (l ++ k) = rsum l + rsum k.
Proof. unfold rsum. induction l as [|x l IH]; cbn; [ring|]. rewrite IH. ring. Qed.
Lemma rsum_scale {A} (f g : A -> R) k l : (forall x, In x l -> f x = k * g x) -> rsum (map f l) = k * rsum (map g l).
Proof. unfold rsum. induction l as [|x l IH]; intros H; cbn; [ring|]. rewrite H, IH by (auto with datatypes). ring. Qed.
Definition fan_sum (p : poly) : R := rsum (map (fun x => orientation (fst (fst x)) (snd (fst x)) (snd x)) (fan p)).

Definition apart (d eps : R) : Prop := d = 0 \/ eps < d \/ d < - eps.
Lemma clip_whole d0 d1 d2 eps front back : 0 <= eps ->
  let r0 := classify d0 eps in let r1 := classify d1 eps in let r2 := classify d2 eps in
  ~ (r0 <> Behind /\ r1 <> Behind /\ r2 <> Behind) -> ~ (r0 = Behind /\ r1 = Behind /\ r2 = Behind) ->
  run_clip d0 d1 d2 r0 r1 r2 = Some (front, back) ->
  1 <= fan_sum front + fan_sum back /\ (apart d0 eps -> apart d1 eps -> apart d2 eps -> fan_sum front + fan_sum back = 1).
Proof.
  intros He r0 r1 r2. unfold r0, r1, r2. clear r0 r1 r2.
  destruct (classify_cases d0 eps He) as [(E0 & D0)|[(E0 & D0)|(E0 & D0)]], (classify_cases d1 eps He) as [(E1 & D1)|[(E1 & D1)|(E1 & D1)]],
    (classify_cases d2 eps He) as [(E2 & D2)|[(E2 & D2)|(E2 & D2)]]; rewrite E0, E1, E2; intros N1 N2;
  try (exfalso; apply N1; repeat split; discriminate); try (exfalso; apply N2; repeat split; reflexivity); clear N1 N2 E0 E1 E2;
  unfold run_clip, edge_step; cbn [relation_eqb Nat.ltb Nat.leb]; hit_cases.
  all: cbn [clip_add poly_add length Nat.ltb Nat.leb app].
  all: intros [= <- <-].
  all: repeat match goal with E : 0 <= _ <= 1 /\ _ |- _ => destruct E end.
  all: unfold fan_sum, rsum, orientation, dot, cross; cbn [fan fan_from map fold_right fst snd bary_edge bary_corner vx vy vz].
  all: split; [nra|unfold apart; intros [A0|[A0|A0]] [A1|[A1|A1]] [A2|[A2|A2]]; try (exfalso; lra)].
  all: try nra.
Qed.

(** A quantity of triangles that is proportional to the orientation of the coordinates. *)
Definition additive (q : vec3 -> vec3 -> vec3 -> R) : Prop := forall a b c u v w, bary u -> bary v -> bary w -> 0 <= orientation u v w ->
  q (combine3 u a b c) (combine3 v a b c) (combine3 w a b c) = orientation u v w * q a b c.
Lemma additive_volume : additive tri_volume.
Proof. intros [a1 a2 a3] [b1 b2 b3] [c1 c2 c3] [u1 u2 u3] [v1 v2 v3] [w1 w2 w3] _ _ _ _. unfold tri_volume, orientation, combine3, vadd, vscale, dot, cross. cbn [vx vy vz]. field. Qed.
Lemma cross_pieces a b c u v w : bary u -> bary v -> bary w ->
  cross (vsub (combine3 v a b c) (combine3 u a b c)) (vsub (combine3 w a b c) (combine3 u a b c)) = vscale (orientation u v w) (cross (vsub b a) (vsub c a)).
Proof.
  intros (_ & _ & _ & U) (_ & _ & _ & V) (_ & _ & _ & W). destruct a as [a1 a2 a3], b as [b1 b2 b3], c as [c1 c2 c3], u as [u1 u2 u3], v as [v1 v2 v3], w as [w1 w2 w3]. cbn [vx vy vz] in U, V, W.
  replace u1 with (1 - u2 - u3) by lra. replace v1 with (1 - v2 - v3) by lra. replace w1 with (1 - w2 - w3) by lra.
  unfold orientation, combine3, vadd, vsub, vscale, dot, cross. cbn [vx vy vz]. f_equal; ring.
Qed.
Lemma additive_shadow n : additive (tri_shadow n).
Proof. intros a b c u v w U V W _. unfold tri_shadow. rewrite cross_pieces by assumption. rewrite dot_scale_r. field. Qed.
Lemma additive_surface : additive tri_surface.
Proof.
  intros a b c u v w U V W O. unfold tri_surface. rewrite cross_pieces by assumption. unfold len, len_sq. rewrite dot_scale_l, dot_scale_r, <- Rmult_assoc.
  rewrite sqrt_mult, sqrt_square by (try assumption; try apply dot_self_ge; nra). field.
Qed.

Definition piece_sum (q : vec3 -> vec3 -> vec3 -> R) (l : list vtri) : R := rsum (map (fun x => q (position (fst (fst x))) (position (snd (fst x))) (position (snd x))) l).
Lemma piece_sum_app q l k : piece_sum q (l ++ k) = piece_sum q l + piece_sum q k.
Proof. unfold piece_sum. now rewrite map_app, rsum_app. Qed.
Lemma total_soup q m l : soup m l -> total q m = piece_sum q l.
Proof. unfold soup, total, piece_sum, rsum. intros ->. rewrite map_map. f_equal. apply map_ext. now intros [[a b] c]. Qed.
Lemma fan_piece_sum q p a b c : additive q -> Forall bary p -> oriented p ->
  piece_sum q (fan_soup (fun w => combine_vertices w a b c) p) = fan_sum p * q (position a) (position b) (position c).
Proof.
  intros Q B O. unfold piece_sum, fan_soup, fan_sum. rewrite map_map, (Rmult_comm (rsum _)). apply rsum_scale. intros [[u v] w] H. cbn [fst snd position combine_vertices].
  destruct (fan_in _ _ _ _ H) as (U & V & W). rewrite Forall_forall in B. rewrite Q by (auto; exact (O _ _ _ H)). ring.
Qed.

Lemma pieces_whole neg eps pl k a b c : 0 <= eps -> exists s, 1 <= s /\
  (forall q, additive q -> piece_sum q (fst (pieces neg eps pl k (a, b, c))) + piece_sum q (snd (pieces neg eps pl k (a, b, c))) = s * q (position a) (position b) (position c)) /\
  (apart (side false pl (position a)) eps -> apart (side false pl (position b)) eps -> apart (side false pl (position c)) eps -> s = 1).
Proof.
  intros He. unfold pieces. destruct (clip_triangle_spec false (neg k) pl (position a) (position b) (position c) eps He) as [(F & E)|[(F & E)|(NF & NB & front & back & E & _ & Pf & Pb & Of & Ob & _)]]; rewrite E.
  - exists 1. split; [lra|]. split; [|auto]. intros q _. unfold piece_sum, rsum. cbn. ring.
  - exists 1. split; [lra|]. split; [|auto]. intros q _. unfold piece_sum, rsum. cbn. ring.
  - exists (fan_sum front + fan_sum back). cbn [fst snd].
    assert (B : forall d, classify d eps = Behind <-> d < - eps).
    { intros d. destruct (classify_cases d eps He) as [(C & D)|[(C & D)|(C & D)]]; rewrite C; split; try discriminate; try reflexivity; lra. }
    set (da := side false pl (position a)) in *. set (db := side false pl (position b)) in *. set (dc := side false pl (position c)) in *.
    assert (W : run_clip da db dc (classify da eps) (classify db eps) (classify dc eps) = Some (front, back)).
    { unfold clip_triangle in E. rewrite !relation_classify, !clip_edge_eq in E. fold da db dc in E. unfold run_clip.
      destruct (negb _ && negb _ && negb _) eqn:E1; [discriminate|]. destruct (negb (negb _) && negb (negb _) && negb (negb _)); [discriminate|].
      destruct (edge_step 2 0 _ _ _ _) as [[f' b']|]; [|discriminate]. congruence. }
    destruct (clip_whole da db dc eps front back He) as [G Q]; [rewrite !B; lra|rewrite !B; lra|exact W|].
    split; [exact G|]. split; [|exact Q]. intros q H. assert (BA : forall lo s p, poly_ok da db dc lo s p -> Forall bary p) by (intros lo s p; apply Forall_impl; tauto).
    rewrite !fan_piece_sum by (eauto). ring.
Qed.
Lemma all_whole neg eps pl q : 0 <= eps -> additive q -> forall l k,
  (forall a b c v, In (a, b, c) l -> v = a \/ v = b \/ v = c -> apart (side false pl (position v)) eps) ->
  piece_sum q (fst (all_pieces neg eps pl k l)) + piece_sum q (snd (all_pieces neg eps pl k l)) = piece_sum q l.
Proof.
  intros He Q. induction l as [|[[a b] c] l IH]; intros k A; cbn [all_pieces]; [unfold piece_sum, rsum; cbn; ring|].
  destruct (pieces_whole neg eps pl k a b c He) as (s & _ & P & S1). specialize (P q Q). rewrite S1 in P; [|apply (A a b c); auto with datatypes..].
  specialize (IH (S k)). destruct (pieces neg eps pl k (a, b, c)) as [f g]. destruct (all_pieces neg eps pl (S k) l) as [f' g']. cbn [fst snd] in *.
  rewrite !piece_sum_app. replace (piece_sum q ((a, b, c) :: l)) with (q (position a) (position b) (position c) + piece_sum q l) by reflexivity.
  rewrite <- IH; [lra|]. intros a' b' c' v H. apply A. now right.
Qed.
Lemma all_more neg eps pl q : 0 <= eps -> additive q -> (forall a b c, 0 <= q a b c) -> forall l k,
  piece_sum q l <= piece_sum q (fst (all_pieces neg eps pl k l)) + piece_sum q (snd (all_pieces neg eps pl k l)).
Proof.
  intros He Q N. induction l as [|[[a b] c] l IH]; intros k; cbn [all_pieces]; [unfold piece_sum, rsum; cbn; lra|].
  destruct (pieces_whole neg eps pl k a b c He) as (s & S1 & P & _). specialize (P q Q).
  specialize (IH (S k)). destruct (pieces neg eps pl k (a, b, c)) as [f g]. destruct (all_pieces neg eps pl (S k) l) as [f' g']. cbn [fst snd] in *.
  rewrite !piece_sum_app. replace (piece_sum q ((a, b, c) :: l)) with (q (position a) (position b) (position c) + piece_sum q l) by reflexivity.
  pose proof (N (position a) (position b) (position c)). nra.
Qed.
Lemma clip_total neg eps m dv pl front back f b q : 0 <= eps -> well_formed m -> clip_mesh neg eps m dv pl front back = Some (f, b) -> additive q ->
  (clear_of pl eps m -> total q f + total q b = total q m) /\ ((forall x y z, 0 <= q x y z) -> total q m <= total q f + total q b).
Proof.
  intros He W E Q. destruct (wf_soup m W) as (xs & Sm). destruct (clip_mesh_soup neg eps m dv pl front back xs He Sm) as (f' & b' & E' & Sf & Sb). rewrite E in E'. injection E' as <- <-.
  rewrite (total_soup q _ _ Sf), (total_soup q _ _ Sb), (total_soup q _ _ Sm). split; [|intros N; now apply all_more].
  intros C. apply all_whole; auto. intros x y z v I V. specialize (C x y z v). rewrite Sm in C. specialize (C (in_map Some _ _ I) V). cbn zeta in C. unfold apart.
  destruct C as [C|C]; [auto|]. revert C. unfold Rabs. destruct (Rcase_abs _); lra.
Qed.
