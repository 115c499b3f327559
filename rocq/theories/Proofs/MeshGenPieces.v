(** The index loops of the mesh generators: the triangles they add. *)
From Coq Require Import ZArith Reals List Bool Arith Lia Lra.
From Verif Require Import Model.Scalar Model.Vec Model.Aabb Model.Mesh Model.Interp Model.Bezier Model.Transforms Model.MeshGen Spec.MeshGenSpec
  Proofs.MeshGenLoops.
Import ListNotations.
Local Open Scope nat_scope.

Lemma map_flat_map {A B C} (g : B -> C) (f : A -> list B) l : map g (flat_map f l) = flat_map (fun x => map g (f x)) l.
Proof. induction l; cbn; [reflexivity|]. now rewrite map_app, IHl. Qed.
Lemma map_cut {A B} (f : A -> B) ac a b c d : map (tmap f) (cut ac a b c d) = cut ac (f a) (f b) (f c) (f d).
Proof. destruct ac; reflexivity. Qed.
Lemma sh_sh a b t : sh a (sh b t) = sh (a + b) t.
Proof. destruct t as [[x y] z]. unfold sh, tmap. now rewrite !Nat.add_assoc. Qed.
Lemma map_sh_sh a b l : map (sh a) (map (sh b) l) = map (sh (a + b)) l.
Proof. rewrite map_map. apply map_ext. intros. apply sh_sh. Qed.

(** The triangles added by the loops, relative to the first vertex of the piece *)
Definition row_tris (alt rev : bool) (H V : nat) : list tri :=
  flat_map (fun v => flat_map (fun u =>
    let i0 := u32 (v * (H + 1) + u) in let i1 := u32 ((v + 1) * (H + 1) + u) in
    let i2 := u32 ((v + 1) * (H + 1) + u + 1) in let i3 := u32 (v * (H + 1) + u + 1) in
    if rev then cut (diagonal alt u v) i1 i0 i3 i2 else cut (diagonal alt u v) i0 i1 i2 i3) (seq 0 H)) (seq 0 V).
Definition uv_tris (alt rev : bool) (U V : nat) : list tri :=
  flat_map (fun v => flat_map (fun u =>
    let i0 := u32 (v * (U + 1) + u) in let i1 := u32 (v * (U + 1) + (u + 1)) in
    let i2 := u32 ((v + 1) * (U + 1) + (u + 1)) in let i3 := u32 ((v + 1) * (U + 1) + u) in
    if rev then cut (diagonal alt u v) i1 i0 i3 i2 else cut (diagonal alt u v) i0 i1 i2 i3) (seq 0 U)) (seq 0 V).
Definition mantle_tris (alt rev : bool) (H V : nat) : list tri :=
  flat_map (fun u => map (sh (u * (1 + V))) (flat_map (fun v =>
    let i0 := u32 (v + 1 + V) in let i1 := v in let i2 := u32 (v + 1) in let i3 := u32 (v + 2 + V) in
    if rev then cut (diagonal alt u v) i1 i0 i3 i2 else cut (diagonal alt u v) i0 i1 i2 i3) (seq 0 V))) (seq 0 H).
Definition ring_tris (alt rev : bool) (H K : nat) : list tri :=
  flat_map (fun u => map (sh (u * (K + 1))) (flat_map (fun v =>
    let i0 := v in let i1 := u32 (v + 1 + K) in let i2 := u32 (v + 2 + K) in let i3 := u32 (v + 1) in
    if rev then cut (diagonal alt u v) i1 i0 i3 i2 else cut (diagonal alt u v) i0 i1 i2 i3) (seq 0 K))) (seq 0 H).
Definition disc_tris (alt rev : bool) (H K : nat) : list tri :=
  flat_map (fun u =>
    (if rev then (0, 1 + u * K, 1 + u * K + K) else (1 + u * K + K, 1 + u * K, 0))
    :: map (sh (1 + u * K)) (flat_map (fun v =>
    let i0 := v - 1 in let i1 := u32 (v - 1 + K) in let i2 := u32 (v + K) in let i3 := v in
    if rev then cut (diagonal alt u v) i1 i0 i3 i2 else cut (diagonal alt u v) i0 i1 i2 i3) (seq 1 (K - 1)))) (seq 0 H).
Definition cone_tris (alt : bool) (H V : nat) : list tri :=
  flat_map (fun u =>
    (u * (1 + V) + V, u * (1 + V), u * (1 + V) + 1 + V)
    :: map (sh (u * (1 + V))) (flat_map (fun v =>
    let i0 := u32 (v + V) in let i1 := v - 1 in let i2 := v in let i3 := u32 (v + 1 + V) in
    cut (diagonal alt u v) i0 i1 i2 i3) (seq 1 (V - 1)))) (seq 0 H).
Definition tube_tris (alt : bool) (U V : nat) : list tri :=
  flat_map (fun u => flat_map (fun v =>
      let i0 := u32 (u * V + v) in
      let i1 := if (v + 1 <? V)%nat then u32 (u * V + v + 1) else u32 (u * V) in
      let i2 := if (u + 1 <? U)%nat then u32 ((u + 1) * V + v) else v in
      let i3 := if (u + 1 <? U)%nat then if (v + 1 <? V)%nat then u32 ((u + 1) * V + v + 1) else u32 ((u + 1) * V)
                else if (v + 1 <? V)%nat then u32 (v + 1) else 0%nat in
      cut (diagonal alt u v) i0 i1 i3 i2) (seq 0 V)) (seq 0 U).

Lemma for_grid_T body g R C N m :
  (forall i j m, i < R -> j < C -> length (verts m) = N -> body i j m = Ok (addT m (g i j))) -> length (verts m) = N ->
  for_lt 0 R (fun i m => for_lt 0 C (fun j m => body i j m) m) m = Ok (addT m (flat_map (fun i => flat_map (g i) (seq 0 C)) (seq 0 R))).
Proof.
  intros H E. unfold for_lt. rewrite !Nat.sub_0_r. apply (for_list_T _ _ _ N); [|exact E]. intros i m' Hi E'. apply in_seq in Hi.
  apply (for_list_T _ _ _ N); [|exact E']. intros j m'' Hj E''. apply in_seq in Hj. apply H; lia.
Qed.

Lemma mul_succ_le a b c : a < b -> a * c + c <= b * c.
Proof. intros. nia. Qed.

Ltac u32_les := repeat match goal with |- context [u32 ?x] => lazymatch goal with H : u32 x <= x |- _ => fail | _ => pose proof (u32_le x) end end.

Lemma row_quads_ok m alt rev H V off N : (Z.of_nat (H + 1) < 2 ^ 32)%Z -> length (verts m) = N -> off + (V + 1) * (H + 1) <= N ->
  row_quads m alt rev H V off = Ok (addT m (map (sh off) (row_tris alt rev H V))).
Proof.
  intros B E HN. unfold row_quads. rewrite (u32_small _ B).
  rewrite (for_grid_T _ (fun v u => map (sh off) (
    let i0 := u32 (v * (H + 1) + u) in let i1 := u32 ((v + 1) * (H + 1) + u) in
    let i2 := u32 ((v + 1) * (H + 1) + u + 1) in let i3 := u32 (v * (H + 1) + u + 1) in
    if rev then cut (diagonal alt u v) i1 i0 i3 i2 else cut (diagonal alt u v) i0 i1 i2 i3)) V H N).
  - unfold row_tris. rewrite map_flat_map. do 2 f_equal. apply flat_map_ext. intros v. now rewrite map_flat_map.
  - intros v u m' Hv Hu E'. cbn zeta. pose proof (mul_succ_le v V (H + 1) Hv). assert ((v + 1) * (H + 1) = v * (H + 1) + (H + 1)) by lia.
    destruct rev; apply (add_quad_ok _ _ _ _ _ _ _ _ _ N); u32_les; lia.
  - exact E.
Qed.

Lemma uv_quads_ok m alt rev H V off N : (Z.of_nat (H + 1) < 2 ^ 32)%Z -> length (verts m) = N -> off + (V + 1) * (H + 1) <= N ->
  uv_quads m alt rev H V off = Ok (addT m (map (sh off) (uv_tris alt rev H V))).
Proof.
  intros B E HN. unfold uv_quads. rewrite (u32_small _ B).
  rewrite (for_grid_T _ (fun v u => map (sh off) (
    let i0 := u32 (v * (H + 1) + u) in let i1 := u32 (v * (H + 1) + (u + 1)) in
    let i2 := u32 ((v + 1) * (H + 1) + (u + 1)) in let i3 := u32 ((v + 1) * (H + 1) + u) in
    if rev then cut (diagonal alt u v) i1 i0 i3 i2 else cut (diagonal alt u v) i0 i1 i2 i3)) V H N).
  - unfold uv_tris. rewrite map_flat_map. do 2 f_equal. apply flat_map_ext. intros v. now rewrite map_flat_map.
  - intros v u m' Hv Hu E'. cbn zeta. pose proof (mul_succ_le v V (H + 1) Hv). assert ((v + 1) * (H + 1) = v * (H + 1) + (H + 1)) by lia.
    destruct rev; apply (add_quad_ok _ _ _ _ _ _ _ _ _ N); u32_les; lia.
  - exact E.
Qed.

Lemma tube_quads_ok m alt U V off N : length (verts m) = N -> off + U * V <= N ->
  tube_quads m alt U V off = Ok (addT m (map (sh off) (tube_tris alt U V))).
Proof.
  intros E HN. unfold tube_quads.
  rewrite (for_grid_T _ (fun u v => map (sh off) (
      let i0 := u32 (u * V + v) in
      let i1 := if (v + 1 <? V)%nat then u32 (u * V + v + 1) else u32 (u * V) in
      let i2 := if (u + 1 <? U)%nat then u32 ((u + 1) * V + v) else v in
      let i3 := if (u + 1 <? U)%nat then if (v + 1 <? V)%nat then u32 ((u + 1) * V + v + 1) else u32 ((u + 1) * V)
                else if (v + 1 <? V)%nat then u32 (v + 1) else 0%nat in
      cut (diagonal alt u v) i0 i1 i3 i2)) U V N).
  - unfold tube_tris. rewrite map_flat_map. do 2 f_equal. apply flat_map_ext. intros v. now rewrite map_flat_map.
  - intros u v m' Hu Hv E'. cbn zeta. pose proof (mul_succ_le u U V Hu). pose proof (mul_succ_le (u + 1) U V) as Hu'.
    assert ((u + 1) * V = u * V + V) by lia. assert (V <= U * V) by nia.
    apply (add_quad_ok _ _ _ _ _ _ _ _ _ N); destruct (Nat.ltb_spec (v + 1) V); destruct (Nat.ltb_spec (u + 1) U); u32_les; lia.
  - exact E.
Qed.

Lemma mantle_quads_ok m alt rev H V off N : (Z.of_nat (V + 1) < 2 ^ 32)%Z -> length (verts m) = N -> off + (H + 1) * (V + 1) <= N ->
  mantle_quads m alt rev H V off = Ok (addT m (map (sh off) (mantle_tris alt rev H V))).
Proof.
  intros B E HN. unfold mantle_quads. rewrite (u32_small (1 + V)) by lia. unfold for_lt at 1. rewrite Nat.sub_0_r.
  pose (g := fun u v => let i0 := u32 (v + 1 + V) in let i1 := v in let i2 := u32 (v + 1) in let i3 := u32 (v + 2 + V) in
    if rev then cut (diagonal alt u v) i1 i0 i3 i2 else cut (diagonal alt u v) i0 i1 i2 i3).
  replace (off, m) with (off + 0 * (1 + V), m) by (f_equal; lia).
  rewrite (for_off _ (fun u o => map (sh o) (flat_map (g u) (seq 0 V))) off (1 + V) N).
  - cbn [bind snd]. unfold mantle_tris. rewrite map_flat_map. do 2 f_equal. apply flat_map_ext. intros u. now rewrite map_sh_sh.
  - intros u m' Hu E'. unfold for_lt. rewrite Nat.sub_0_r.
    rewrite (for_list_T _ _ (fun v => map (sh (off + u * (1 + V))) (g u v)) N); [|intros v m'' Hv E''; apply in_seq in Hv|exact E'].
    + cbn [bind]. now rewrite map_flat_map.
    + unfold g. cbn zeta. pose proof (mul_succ_le u H (1 + V)). assert ((H + 1) * (V + 1) = H * (1 + V) + (1 + V)) by lia.
      destruct rev; apply (add_quad_ok _ _ _ _ _ _ _ _ _ N); u32_les; lia.
  - exact E.
Qed.

Lemma ring_quads_ok m alt rev H V off N : (Z.of_nat (V + 1) < 2 ^ 32)%Z -> length (verts m) = N -> off + (H + 1) * (V + 1) <= N ->
  ring_quads m alt rev H V off = Ok (addT m (map (sh off) (ring_tris alt rev H V))).
Proof.
  intros B E HN. unfold ring_quads. rewrite (u32_small (V + 1)) by lia. unfold for_lt at 1. rewrite Nat.sub_0_r.
  pose (g := fun u v => let i0 := v in let i1 := u32 (v + 1 + V) in let i2 := u32 (v + 2 + V) in let i3 := u32 (v + 1) in
    if rev then cut (diagonal alt u v) i1 i0 i3 i2 else cut (diagonal alt u v) i0 i1 i2 i3).
  replace (off, m) with (off + 0 * (V + 1), m) by (f_equal; lia).
  rewrite (for_off _ (fun u o => map (sh o) (flat_map (g u) (seq 0 V))) off (V + 1) N).
  - cbn [bind snd]. unfold ring_tris. rewrite map_flat_map. do 2 f_equal. apply flat_map_ext. intros u. now rewrite map_sh_sh.
  - intros u m' Hu E'. unfold for_lt. rewrite Nat.sub_0_r.
    rewrite (for_list_T _ _ (fun v => map (sh (off + u * (V + 1))) (g u v)) N); [|intros v m'' Hv E''; apply in_seq in Hv|exact E'].
    + cbn [bind]. now rewrite map_flat_map.
    + unfold g. cbn zeta. pose proof (mul_succ_le u H (1 + V)). assert ((H + 1) * (V + 1) = H * (1 + V) + (1 + V)) by lia.
      destruct rev; apply (add_quad_ok _ _ _ _ _ _ _ _ _ N); u32_les; lia.
  - exact E.
Qed.

Lemma disc_quads_ok m alt rev H K c N : 0 < K -> length (verts m) = N -> c + 1 + (H + 1) * K <= N ->
  disc_quads m alt rev H K c = Ok (addT m (map (sh c) (disc_tris alt rev H K))).
Proof.
  intros B E HN. unfold disc_quads. unfold for_lt at 1. rewrite Nat.sub_0_r.
  pose (g := fun u v => let i0 := v - 1 in let i1 := u32 (v - 1 + K) in let i2 := u32 (v + K) in let i3 := v in
    if rev then cut (diagonal alt u v) i1 i0 i3 i2 else cut (diagonal alt u v) i0 i1 i2 i3).
  replace (c + 1, m) with (c + 1 + 0 * K, m) by (f_equal; lia).
  rewrite (for_off _ (fun u o => (if rev then (c, o, o + K) else (o + K, o, c)) :: map (sh o) (flat_map (g u) (seq 1 (K - 1)))) (c + 1) K N).
  - cbn [bind snd]. unfold disc_tris. rewrite map_flat_map. do 2 f_equal. apply flat_map_ext. intros u. cbn [map]. rewrite map_sh_sh.
    replace (c + (1 + u * K)) with (c + 1 + u * K) by lia. apply (f_equal2 cons); [|reflexivity]. destruct rev; unfold sh, tmap; (apply (f_equal2 pair); [apply (f_equal2 pair)|]; lia).
  - intros u m' Hu E'. pose proof (mul_succ_le u H K). assert ((H + 1) * K = H * K + K) by lia.
    replace (if rev then add_t m' c (c + 1 + u * K) (c + 1 + u * K + K) else add_t m' (c + 1 + u * K + K) (c + 1 + u * K) c)
      with (Ok (addT m' [if rev then (c, c + 1 + u * K, c + 1 + u * K + K) else (c + 1 + u * K + K, c + 1 + u * K, c)]))
      by (destruct rev; symmetry; apply (add_t_ok _ _ _ _ N); lia).
    cbn [bind]. unfold for_lt.
    rewrite (for_list_T _ _ (fun v => map (sh (c + 1 + u * K)) (g u v)) N); [|intros v m'' Hv E''; apply in_seq in Hv|exact E'].
    + cbn [bind]. rewrite addT_app, map_flat_map. reflexivity.
    + unfold g. cbn zeta. destruct rev; apply (add_quad_ok _ _ _ _ _ _ _ _ _ N); u32_les; lia.
  - exact E.
Qed.

Lemma cone_quads_ok m alt H V off N : 0 < V -> (Z.of_nat (V + 1) < 2 ^ 32)%Z -> length (verts m) = N -> off + (H + 1) * V + H <= N ->
  cone_quads m alt H V off = Ok (addT m (map (sh off) (cone_tris alt H V))).
Proof.
  intros P B E HN. unfold cone_quads. rewrite (u32_small (1 + V)) by lia. unfold for_lt at 1. rewrite Nat.sub_0_r.
  pose (g := fun u v => let i0 := u32 (v + V) in let i1 := v - 1 in let i2 := v in let i3 := u32 (v + 1 + V) in
    cut (diagonal alt u v) i0 i1 i2 i3).
  replace (off, m) with (off + 0 * (1 + V), m) by (f_equal; lia).
  rewrite (for_off _ (fun u o => (o + V, o, o + 1 + V) :: map (sh o) (flat_map (g u) (seq 1 (V - 1)))) off (1 + V) N).
  - cbn [bind snd]. unfold cone_tris. rewrite map_flat_map. do 2 f_equal. apply flat_map_ext. intros u. cbn [map]. rewrite map_sh_sh.
    apply (f_equal2 cons); [|reflexivity]. unfold sh, tmap; (apply (f_equal2 pair); [apply (f_equal2 pair)|]; lia).
  - intros u m' Hu E'. pose proof (mul_succ_le u H (1 + V)). assert ((H + 1) * V = H * V + V) by lia. assert (H * (1 + V) = H + H * V) by lia.
    rewrite (add_t_ok _ _ _ _ N) by lia. cbn [bind]. unfold for_lt.
    rewrite (for_list_T _ _ (fun v => map (sh (off + u * (1 + V))) (g u v)) N); [|intros v m'' Hv E''; apply in_seq in Hv|exact E'].
    + cbn [bind]. rewrite addT_app, map_flat_map. reflexivity.
    + unfold g. cbn zeta. apply (add_quad_ok _ _ _ _ _ _ _ _ _ N); u32_les; lia.
  - exact E.
Qed.
