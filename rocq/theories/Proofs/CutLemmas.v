(** A cut opens a mesh only along the plane: sums of antisymmetric functions over directed edges. *)
From Coq Require Import ZArith Reals List Bool Arith Lra Lia Psatz.
From Verif Require Import Model.Scalar Model.Vec Model.Ext Model.Plane Model.Mesh Model.Interp Model.Clip.
From Verif Require Import Spec.PlaneSpec Spec.MeshSpec Spec.InterpSpec Spec.ClipSpec Spec.ClipAreaSpec Spec.ClosedSpec Spec.CutSpec.
From Verif Require Spec.MeshGenSpec.
From Verif Require Import Proofs.VecLemmas Proofs.PlaneLemmas Proofs.InterpLemmas Proofs.MeshLemmas2 Proofs.ClipLemmas Proofs.ClipMesh Proofs.ClipAreaLemmas.
Import ListNotations.
Local Open Scope R_scope.

Notation space_tri := (vec3 * vec3 * vec3)%type.
Notation edges := (@MeshGenSpec.directed_edges vec3).

(** ** Sums over directed edges *)
Definition esum (g : vec3 -> vec3 -> Z) (l : list (vec3 * vec3)) : Z := fold_right Z.add 0%Z (map (fun e => g (fst e) (snd e)) l).
Definition anti (g : vec3 -> vec3 -> Z) : Prop := forall x y, g y x = (- g x y)%Z.
Lemma anti_self g x : anti g -> g x x = 0%Z.
Proof. intros A. specialize (A x x). lia. Qed.
Lemma esum_app g l k : esum g (l ++ k) = (esum g l + esum g k)%Z.
Proof. unfold esum. induction l as [|e l IH]; cbn; [reflexivity|]. rewrite IH. lia. Qed.
Definition circ (g : vec3 -> vec3 -> Z) (l : list space_tri) : Z := esum g (edges l).
Lemma edges_app (l k : list space_tri) : edges (l ++ k) = edges l ++ edges k.
Proof. unfold MeshGenSpec.directed_edges. apply flat_map_app. Qed.
Lemma circ_app g l k : circ g (l ++ k) = (circ g l + circ g k)%Z.
Proof. unfold circ. now rewrite edges_app, esum_app. Qed.
Lemma circ_cons g a b c l : circ g ((a, b, c) :: l) = (g a b + g b c + g c a + circ g l)%Z.
Proof. unfold circ. change (edges ((a, b, c) :: l)) with ([(a, b); (b, c); (c, a)] ++ edges l). rewrite esum_app. unfold esum at 1. cbn [map fold_right fst snd]. lia. Qed.

Notation cnt := (count_occ edge_dec).
Definition ind (p q x y : vec3) : Z := if edge_dec (x, y) (p, q) then 1%Z else 0%Z.
Definition net (p q x y : vec3) : Z := (ind p q x y - ind q p x y)%Z.
Lemma ind_swap p q x y : ind p q y x = ind q p x y.
Proof. unfold ind. destruct (edge_dec (y, x) (p, q)), (edge_dec (x, y) (q, p)); try reflexivity; congruence. Qed.
Lemma net_anti p q : anti (net p q).
Proof. intros x y. unfold net. rewrite (ind_swap p q x y), (ind_swap q p x y). lia. Qed.
Lemma net_esum p q l : esum (net p q) l = (Z.of_nat (cnt l (p, q)) - Z.of_nat (cnt l (q, p)))%Z.
Proof.
  induction l as [|[x y] l IH]; [reflexivity|]. unfold esum in *. cbn [map fold_right fst snd]. rewrite IH. unfold net, ind. cbn [count_occ].
  destruct (edge_dec (x, y) (p, q)), (edge_dec (x, y) (q, p)); lia.
Qed.
Lemma net_circ p q l : circ (net p q) l = (Z.of_nat (uses l p q) - Z.of_nat (uses l q p))%Z.
Proof. apply net_esum. Qed.
Lemma net_zero p q x y : (x, y) <> (p, q) -> (x, y) <> (q, p) -> net p q x y = 0%Z.
Proof. intros A B. unfold net, ind. destruct (edge_dec (x, y) (p, q)), (edge_dec (x, y) (q, p)); try congruence; reflexivity. Qed.

Lemma cnt_app (l k : list (vec3 * vec3)) e : cnt (l ++ k) e = (cnt l e + cnt k e)%nat.
Proof. apply count_occ_app. Qed.
(** Edges that are used equally often in both directions cancel. *)
Lemma balanced_sum g : anti g -> forall n l, (length l <= n)%nat ->
  (forall x y, g x y <> 0%Z -> cnt l (x, y) = cnt l (y, x)) -> esum g l = 0%Z.
Proof.
  intros A. induction n as [|n IH]; intros l L B; [destruct l; [reflexivity|cbn in L; lia]|].
  destruct l as [|[x y] l]; [reflexivity|]. cbn in L. change (esum g ((x, y) :: l)) with (g x y + esum g l)%Z.
  destruct (Z.eq_dec (g x y) 0) as [Z0|N0].
  - rewrite Z0. rewrite IH; [reflexivity|lia|]. intros u v N. specialize (B u v N). cbn [count_occ] in B.
    destruct (edge_dec (x, y) (u, v)) as [E|]; [injection E as -> ->; congruence|].
    destruct (edge_dec (x, y) (v, u)) as [E|]; [injection E as -> ->; specialize (A v u); lia|exact B].
  - assert (D : x <> y) by (intros ->; apply N0, (anti_self g y A)).
    pose proof (B x y N0) as Bxy. cbn [count_occ] in Bxy. destruct (edge_dec (x, y) (x, y)) as [_|]; [|congruence].
    destruct (edge_dec (x, y) (y, x)) as [E|_]; [congruence|].
    assert (I : In (y, x) l) by (apply (count_occ_In edge_dec); lia).
    destruct (in_split _ _ I) as (l1 & l2 & ->). rewrite esum_app. change (esum g ((y, x) :: l2)) with (g y x + esum g l2)%Z.
    assert (S : esum g (l1 ++ l2) = 0%Z).
    { apply IH; [rewrite app_length in *; cbn in L; lia|]. intros u v N. specialize (B u v N). cbn [count_occ] in B. rewrite !cnt_app in *. cbn [count_occ] in B.
      destruct (edge_dec (x, y) (u, v)) as [E1|E1], (edge_dec (x, y) (v, u)) as [E2|E2], (edge_dec (y, x) (u, v)) as [E3|E3], (edge_dec (y, x) (v, u)) as [E4|E4]; try congruence; try lia. }
    rewrite esum_app in S. specialize (A x y). lia.
Qed.

(** ** Where an edge meets the plane *)
Definition seg (a b : vec3) (t : R) : vec3 := vadd (vscale (1 - t) a) (vscale t b).
Section Plane.
Variable pl : plane.
Notation sd := (side false pl).
Definition meet (a b : vec3) : vec3 := seg a b (sd a / (sd a - sd b)).
Lemma seg_side a b t : sd (seg a b t) = (1 - t) * sd a + t * sd b.
Proof. unfold seg, side. rewrite dot_add_r, !dot_scale_r. ring. Qed.
Lemma meet_on a b : sd a <> sd b -> sd (meet a b) = 0.
Proof. intros N. unfold meet. rewrite seg_side. field. lra. Qed.
Lemma meet_sym a b : sd a <> sd b -> meet b a = meet a b.
Proof. intros N. unfold meet, seg. destruct a as [a1 a2 a3], b as [b1 b2 b3]. set (s := sd (V3 a1 a2 a3)) in *. set (r := sd (V3 b1 b2 b3)) in *. clearbody s r. unfold vadd, vscale. cbn [vx vy vz]. f_equal; field; lra. Qed.
Lemma seg_0 a b : seg a b 0 = a.
Proof. unfold seg. destruct a, b. vunfold. f_equal; ring. Qed.
Lemma seg_1 a b : seg a b 1 = b.
Proof. unfold seg. destruct a, b. vunfold. f_equal; ring. Qed.
Lemma meet_left a b : sd a = 0 -> sd b <> 0 -> meet a b = a.
Proof. intros A B. unfold meet. rewrite A. replace (0 / (0 - sd b)) with 0 by (field; lra). apply seg_0. Qed.
Lemma meet_right a b : sd b = 0 -> sd a <> 0 -> meet a b = b.
Proof. intros A B. unfold meet. rewrite A. replace (sd a / (sd a - 0)) with 1 by (field; lra). apply seg_1. Qed.
Lemma meet_between a b : sd a < 0 <= sd b \/ sd b < 0 <= sd a \/ sd a <= 0 < sd b \/ sd b <= 0 < sd a -> between a b (meet a b).
Proof.
  intros H. exists (sd a / (sd a - sd b)). split; [|reflexivity]. assert (N : sd a - sd b <> 0) by lra.
  assert (M : sd a / (sd a - sd b) * (sd a - sd b) = sd a) by (field; exact N). set (t := sd a / (sd a - sd b)) in *. clearbody t.
  split; nra.
Qed.

(** What is left of the edge from a to b in front of the plane, behind it, and both *)
Section Rest.
Variable g : vec3 -> vec3 -> Z.
Definition front_rest (a b : vec3) : Z :=
  if Rle_dec 0 (sd a) then if Rle_dec 0 (sd b) then g a b else g a (meet a b)
  else if Rle_dec 0 (sd b) then g (meet a b) b else 0%Z.
Definition back_rest (a b : vec3) : Z :=
  if Rle_dec (sd a) 0 then if Rle_dec (sd b) 0 then g a b else g a (meet a b)
  else if Rle_dec (sd b) 0 then g (meet a b) b else 0%Z.
Definition both_rest (a b : vec3) : Z :=
  if Rlt_dec (sd a * sd b) 0 then (g a (meet a b) + g (meet a b) b)%Z else g a b.
Hypothesis A : anti g.
Lemma front_anti : anti front_rest.
Proof.
  intros a b. unfold front_rest. destruct (Rle_dec 0 (sd a)), (Rle_dec 0 (sd b)); try apply A; try lia; rewrite (meet_sym a b) by lra; apply A.
Qed.
Lemma back_anti : anti back_rest.
Proof.
  intros a b. unfold back_rest. destruct (Rle_dec (sd a) 0), (Rle_dec (sd b) 0); try apply A; try lia; rewrite (meet_sym a b) by lra; apply A.
Qed.
Lemma both_anti : anti both_rest.
Proof.
  intros a b. unfold both_rest. rewrite (Rmult_comm (sd b)). destruct (Rlt_dec (sd a * sd b) 0) as [L|L]; [|apply A].
  assert (sd a <> sd b) by nra. rewrite (meet_sym a b) by assumption. rewrite (A (meet a b) b), (A a (meet a b)). lia.
Qed.
End Rest.

(** ** One triangle *)
Lemma hit_first da db : da = 0 -> db <> 0 -> edge_hit da db = Some 0.
Proof.
  intros -> N. unfold edge_hit. destruct (Reqb (db - 0) 0) eqn:E; [apply Reqb_iff in E; lra|]. cbn zeta.
  replace (- 0 / (db - 0)) with 0 by (field; lra).
  replace (Rleb 0 0) with true by (symmetry; apply Rleb_iff; lra). replace (Rleb 0 1) with true by (symmetry; apply Rleb_iff; lra). reflexivity.
Qed.
Lemma hit_cross da db : (da < 0 < db \/ db < 0 < da) -> edge_hit da db = Some (da / (da - db)).
Proof.
  intros H. destruct (edge_hit_cross da db H) as (t & E). rewrite E. apply edge_hit_some in E. f_equal.
  apply (Rmult_eq_reg_r (da - db)); [|lra]. unfold Rdiv. rewrite Rmult_assoc, Rinv_l by lra. lra.
Qed.

Definition place (a b c : vec3) (p : poly) : list space_tri := map (fun x => (combine3 (fst (fst x)) a b c, combine3 (snd (fst x)) a b c, combine3 (snd x) a b c)) (fan p).
Lemma corner_0 a b c : combine3 (bary_corner 0) a b c = a.
Proof. destruct a, b, c. unfold combine3. cbn. vunfold. f_equal; ring. Qed.
Lemma corner_1 a b c : combine3 (bary_corner 1) a b c = b.
Proof. destruct a, b, c. unfold combine3. cbn. vunfold. f_equal; ring. Qed.
Lemma corner_2 a b c : combine3 (bary_corner 2) a b c = c.
Proof. destruct a, b, c. unfold combine3. cbn. vunfold. f_equal; ring. Qed.
Lemma edge_0 a b c t : combine3 (bary_edge 0 t) a b c = seg a b t.
Proof. destruct a, b, c. unfold combine3, seg. cbn. vunfold. f_equal; ring. Qed.
Lemma edge_1 a b c t : combine3 (bary_edge 1 t) a b c = seg b c t.
Proof. destruct a, b, c. unfold combine3, seg. cbn. vunfold. f_equal; ring. Qed.
Lemma edge_2 a b c t : combine3 (bary_edge 2 t) a b c = seg c a t.
Proof. destruct a, b, c. unfold combine3, seg. cbn. vunfold. f_equal; ring. Qed.

(** [g] does not see edges in the plane. *)
Definition blind (g : vec3 -> vec3 -> Z) : Prop := forall x y, sd x = 0 -> sd y = 0 -> g x y = 0%Z.
Ltac choose_sides := repeat match goal with
  | |- context [Rle_dec ?x ?y] => destruct (Rle_dec x y); try (exfalso; lra)
  | |- context [Rlt_dec (?x * ?y) 0] => destruct (Rlt_dec (x * y) 0); try (exfalso; nra)
  end.
Ltac meets := repeat first [rewrite meet_left by lra | rewrite meet_right by lra].
Ltac on_facts := repeat match goal with
  | |- context [meet ?x ?y] => lazymatch goal with _ : sd (meet x y) = 0 |- _ => fail | _ => assert (sd (meet x y) = 0) by (apply meet_on; lra) end
  end.
Ltac zero_facts B := repeat match goal with
  | |- context [?g ?x ?y] => rewrite (B x y) by assumption
  end.
Lemma some_pair {T} (x y x' y' : T) : Some (x, y) = Some (x', y') -> x = x' /\ y = y'.
Proof. intros [= -> ->]. auto. Qed.
Lemma clip_circ a b c eps front back : 0 <= eps -> apart (sd a) eps -> apart (sd b) eps -> apart (sd c) eps ->
  let r0 := classify (sd a) eps in let r1 := classify (sd b) eps in let r2 := classify (sd c) eps in
  ~ (r0 <> Behind /\ r1 <> Behind /\ r2 <> Behind) -> ~ (r0 = Behind /\ r1 = Behind /\ r2 = Behind) ->
  run_clip (sd a) (sd b) (sd c) r0 r1 r2 = Some (front, back) ->
  forall g, anti g ->
  (blind g -> circ g (place a b c front) = (front_rest g a b + front_rest g b c + front_rest g c a)%Z /\
              circ g (place a b c back) = (back_rest g a b + back_rest g b c + back_rest g c a)%Z) /\
  (circ g (place a b c front) + circ g (place a b c back) = both_rest g a b + both_rest g b c + both_rest g c a)%Z.
Proof.
  intros He A0 A1 A2 r0 r1 r2. unfold r0, r1, r2. clear r0 r1 r2.
  destruct (classify_cases (sd a) eps He) as [(E0 & D0)|[(E0 & D0)|(E0 & D0)]], (classify_cases (sd b) eps He) as [(E1 & D1)|[(E1 & D1)|(E1 & D1)]],
    (classify_cases (sd c) eps He) as [(E2 & D2)|[(E2 & D2)|(E2 & D2)]]; rewrite E0, E1, E2; intros N1 N2;
  try (exfalso; apply N1; repeat split; discriminate); try (exfalso; apply N2; repeat split; reflexivity); clear N1 N2 E0 E1 E2.
  all: repeat match goal with D : - ?e <= ?d <= ?e, P : apart ?d ?e |- _ => assert (d = 0) by (destruct P as [P|[P|P]]; lra); clear D P end.
  all: repeat match goal with D : ?e < ?d, P : apart ?d ?e |- _ => assert (0 < d) by lra; clear D P end.
  all: repeat match goal with D : ?d < - ?e, P : apart ?d ?e |- _ => assert (d < 0) by lra; clear D P end.
  all: unfold run_clip, edge_step; cbn [relation_eqb Nat.ltb Nat.leb].
  all: repeat match goal with |- context [edge_hit ?x ?y] => first [rewrite (edge_hit_none x y) by lra | rewrite (hit_cross x y) by lra | rewrite (hit_first x y) by lra] end.
  all: cbn [clip_add poly_add length Nat.ltb Nat.leb app].
  all: intros HQ g AN; apply some_pair in HQ; destruct HQ as [<- <-].
  all: unfold place; cbn [fan fan_from map fst snd].
  all: rewrite ?circ_cons; change (circ g []) with 0%Z.
  all: rewrite ?corner_0, ?corner_1, ?corner_2, ?edge_0, ?edge_1, ?edge_2, ?seg_0.
  all: fold (meet a b); fold (meet b c); fold (meet c a).
  all: pose proof (anti_self g a AN); pose proof (anti_self g b AN); pose proof (anti_self g c AN).
  all: pose proof (anti_self g (meet a b) AN); pose proof (anti_self g (meet b c) AN); pose proof (anti_self g (meet c a) AN).
  all: pose proof (AN a b); pose proof (AN b c); pose proof (AN c a).
  all: pose proof (AN a (meet a b)); pose proof (AN a (meet b c)); pose proof (AN a (meet c a)).
  all: pose proof (AN b (meet a b)); pose proof (AN b (meet b c)); pose proof (AN b (meet c a)).
  all: pose proof (AN c (meet a b)); pose proof (AN c (meet b c)); pose proof (AN c (meet c a)).
  all: pose proof (AN (meet a b) (meet b c)); pose proof (AN (meet b c) (meet c a)); pose proof (AN (meet c a) (meet a b)).
  all: unfold front_rest, back_rest, both_rest; choose_sides; meets.
  all: split; [intros B; on_facts; split; zero_facts B; lia|lia].
Qed.

(** ** All triangles *)
Notation spaces := (map (MeshGenSpec.tmap position)).
Lemma fan_spaces a b c p : spaces (fan_soup (fun w => combine_vertices w a b c) p) = place (position a) (position b) (position c) p.
Proof. unfold fan_soup, place. rewrite map_map. apply map_ext. now intros [[u v] w]. Qed.
Lemma pieces_circ neg eps k a b c g : 0 <= eps -> anti g -> apart (sd (position a)) eps -> apart (sd (position b)) eps -> apart (sd (position c)) eps ->
  let sum h := (h (position a) (position b) + h (position b) (position c) + h (position c) (position a))%Z in
  let f := spaces (fst (pieces neg eps pl k (a, b, c))) in let r := spaces (snd (pieces neg eps pl k (a, b, c))) in
  (blind g -> circ g f = sum (front_rest g) /\ circ g r = sum (back_rest g)) /\ (circ g f + circ g r = sum (both_rest g))%Z.
Proof.
  intros He AN A0 A1 A2. cbn zeta. unfold pieces.
  destruct (clip_triangle_spec false (neg k) pl (position a) (position b) (position c) eps He) as [((F0 & F1 & F2) & E)|[((F0 & F1 & F2) & E)|(NF & NB & front & back & E & _)]]; rewrite E; cbn [fst snd map MeshGenSpec.tmap].
  - rewrite circ_cons. change (circ g []) with 0%Z. set (x := position a) in *. set (y := position b) in *. set (z := position c) in *. clearbody x y z.
    assert (0 <= sd x) by (destruct A0 as [A0|[A0|A0]]; lra). assert (0 <= sd y) by (destruct A1 as [A1|[A1|A1]]; lra). assert (0 <= sd z) by (destruct A2 as [A2|[A2|A2]]; lra). clear A0 A1 A2.
    unfold front_rest, back_rest, both_rest. pose proof (anti_self g x AN). pose proof (anti_self g y AN). pose proof (anti_self g z AN).
    split; [|destruct (Rlt_dec (sd x * sd y) 0), (Rlt_dec (sd y * sd z) 0), (Rlt_dec (sd z * sd x) 0); try (exfalso; nra); lia].
    intros B. destruct (Rle_dec 0 (sd x)), (Rle_dec 0 (sd y)), (Rle_dec 0 (sd z)); try (exfalso; lra). split; [lia|].
    destruct (Rle_dec (sd x) 0), (Rle_dec (sd y) 0), (Rle_dec (sd z) 0); meets;
      repeat match goal with |- context [g ?u ?v] => lazymatch u with v => fail | _ => rewrite (B u v) by lra end end; lia.
  - rewrite circ_cons. change (circ g []) with 0%Z. set (x := position a) in *. set (y := position b) in *. set (z := position c) in *. clearbody x y z.
    assert (sd x < 0) by (destruct A0 as [A0|[A0|A0]]; lra). assert (sd y < 0) by (destruct A1 as [A1|[A1|A1]]; lra). assert (sd z < 0) by (destruct A2 as [A2|[A2|A2]]; lra). clear A0 A1 A2.
    unfold front_rest, back_rest, both_rest.
    split; [|destruct (Rlt_dec (sd x * sd y) 0), (Rlt_dec (sd y * sd z) 0), (Rlt_dec (sd z * sd x) 0); try (exfalso; nra); lia].
    intros B. destruct (Rle_dec 0 (sd x)), (Rle_dec 0 (sd y)), (Rle_dec 0 (sd z)); try (exfalso; lra). split; [lia|].
    destruct (Rle_dec (sd x) 0), (Rle_dec (sd y) 0), (Rle_dec (sd z) 0); try (exfalso; lra); lia.
  - rewrite !fan_spaces. set (da := sd (position a)) in *. set (db := sd (position b)) in *. set (dc := sd (position c)) in *.
    assert (B : forall d, classify d eps = Behind <-> d < - eps).
    { intros d. destruct (classify_cases d eps He) as [(C & D)|[(C & D)|(C & D)]]; rewrite C; split; try discriminate; try reflexivity; lra. }
    assert (W : run_clip da db dc (classify da eps) (classify db eps) (classify dc eps) = Some (front, back)).
    { unfold clip_triangle in E. rewrite !relation_classify, !clip_edge_eq in E. fold da db dc in E. unfold run_clip.
      destruct (negb _ && negb _ && negb _) eqn:E1; [discriminate|]. destruct (negb (negb _) && negb (negb _) && negb (negb _)); [discriminate|].
      destruct (edge_step 2 0 _ _ _ _) as [[f' b']|]; [|discriminate]. congruence. }
    apply (clip_circ (position a) (position b) (position c) eps front back He A0 A1 A2); [rewrite !B; fold da db dc; lra|rewrite !B; fold da db dc; lra|exact W|exact AN].
Qed.
Lemma all_circ neg eps g : 0 <= eps -> anti g -> forall l k,
  (forall a b c v, In (a, b, c) l -> v = a \/ v = b \/ v = c -> apart (sd (position v)) eps) ->
  let f := spaces (fst (all_pieces neg eps pl k l)) in let r := spaces (snd (all_pieces neg eps pl k l)) in
  (blind g -> circ g f = circ (front_rest g) (spaces l) /\ circ g r = circ (back_rest g) (spaces l)) /\ (circ g f + circ g r = circ (both_rest g) (spaces l))%Z.
Proof.
  intros He AN. induction l as [|[[a b] c] l IH]; intros k A; cbn zeta; [auto|]. cbn [all_pieces].
  pose proof (pieces_circ neg eps k a b c g He AN ltac:(apply (A a b c); auto with datatypes) ltac:(apply (A a b c); auto with datatypes) ltac:(apply (A a b c); auto with datatypes)) as P. cbn zeta in P.
  specialize (IH (S k)). cbn zeta in IH. destruct IH as [I1 I2]; [intros x y z v H; apply A; now right|].
  destruct (pieces neg eps pl k (a, b, c)) as [f r]. destruct (all_pieces neg eps pl (S k) l) as [f' r']. cbn [fst snd] in *.
  rewrite !map_app, !circ_app. cbn [map MeshGenSpec.tmap]. rewrite !circ_cons. destruct P as [P1 P2]. split; [|lia].
  intros B. specialize (P1 B). specialize (I1 B). lia.
Qed.

Lemma faces_soup m l : soup m l -> faces m = spaces l.
Proof.
  unfold soup, triangle_list, faces, geometry. revert l. induction (tris m) as [|t ts IH]; intros [|[[a b] c] l] H; try discriminate; [reflexivity|].
  cbn [map] in H. injection H as H1 H2. cbn [flat_map map]. rewrite (IH l H2).
  replace (MeshGenSpec.corners m t) with (corners (verts m) t) by (destruct t as [[u v] w]; reflexivity). rewrite H1. reflexivity.
Qed.

Lemma net_sees p q x y : net p q x y <> 0%Z -> (x = p /\ y = q) \/ (x = q /\ y = p).
Proof. unfold net, ind. destruct (edge_dec (x, y) (p, q)) as [E|_]; [injection E as -> ->; auto|]. destruct (edge_dec (x, y) (q, p)) as [E|_]; [injection E as -> ->; auto|]. intros H; exfalso; apply H; reflexivity. Qed.
Lemma between_left a b : between a b a.
Proof. exists 0. split; [lra|]. symmetry. apply seg_0. Qed.
Lemma between_right a b : between a b b.
Proof. exists 1. split; [lra|]. symmetry. apply seg_1. Qed.
Lemma rest_part p q h a b : h = front_rest \/ h = back_rest \/ h = both_rest -> h (net p q) a b <> 0%Z -> part_of_edge a b p q.
Proof.
  assert (S : forall u v, between a b u -> between a b v -> net p q u v <> 0%Z -> part_of_edge a b p q).
  { intros u v U V N. apply net_sees in N. destruct N as [[-> ->]|[-> ->]]; split; assumption. }
  intros [ -> | [ -> | -> ]]; unfold front_rest, back_rest, both_rest.
  - destruct (Rle_dec 0 (sd a)), (Rle_dec 0 (sd b)); intros N; try congruence; revert N; apply S; try apply between_left; try apply between_right; apply meet_between; lra.
  - destruct (Rle_dec (sd a) 0), (Rle_dec (sd b) 0); intros N; try congruence; revert N; apply S; try apply between_left; try apply between_right; apply meet_between; lra.
  - destruct (Rlt_dec (sd a * sd b) 0) as [L|L]; intros N; [|revert N; apply S; [apply between_left|apply between_right]].
    assert (M : between a b (meet a b)). { apply meet_between. destruct (Rlt_dec (sd a) 0), (Rlt_dec (sd b) 0); nra. }
    destruct (Z.eq_dec (net p q a (meet a b)) 0) as [Z0|N0]; [apply (S (meet a b) b M (between_right a b)); lia|exact (S a (meet a b) (between_left a b) M N0)].
Qed.
Lemma found p q h l : h = front_rest \/ h = back_rest \/ h = both_rest -> circ (h (net p q)) l <> 0%Z -> exists a b, border l a b /\ part_of_edge a b p q.
Proof.
  intros Hh N. apply Classical_Prop.NNPP. intros M. apply N. unfold circ. apply (balanced_sum _) with (n := length (edges l)); [|lia|].
  - destruct Hh as [ -> | [ -> | -> ]]; [apply front_anti|apply back_anti|apply both_anti]; apply net_anti.
  - intros x y H. change (uses l x y = uses l y x). destruct (Nat.eq_dec (uses l x y) (uses l y x)) as [E|E]; [exact E|].
    exfalso. apply M. exists x, y. split; [exact E|]. exact (rest_part p q h x y Hh H).
Qed.
Lemma border_circ l p q : border l p q <-> circ (net p q) l <> 0%Z.
Proof. unfold border. rewrite net_circ. lia. Qed.

Lemma cut_borders neg eps m dv front back f b : 0 <= eps -> well_formed m -> clip_mesh neg eps m dv pl front back = Some (f, b) -> clear_of pl eps m ->
  forall p q,
  ((border (faces f) p q \/ border (faces b) p q) -> in_plane pl p q \/ exists x y, border (faces m) x y /\ part_of_edge x y p q) /\
  (border (faces f ++ faces b) p q -> exists x y, border (faces m) x y /\ part_of_edge x y p q).
Proof.
  intros He W E C p q. destruct (wf_soup m W) as (xs & Sm). destruct (clip_mesh_soup neg eps m dv pl front back xs He Sm) as (f' & b' & E' & Sf & Sb). rewrite E in E'. injection E' as <- <-.
  rewrite (faces_soup _ _ Sf), (faces_soup _ _ Sb), (faces_soup _ _ Sm).
  destruct (all_circ neg eps (net p q) He (net_anti p q) xs 0) as [P1 P2].
  { intros x y z v I V. specialize (C x y z v). rewrite Sm in C. specialize (C (in_map Some _ _ I) V). cbn zeta in C. unfold apart.
    destruct C as [C|C]; [auto|]. revert C. unfold Rabs. destruct (Rcase_abs _); lra. }
  split.
  - destruct (Req_EM_T (sd p) 0) as [Zp|Np], (Req_EM_T (sd q) 0) as [Zq|Nq]; [left; split; assumption|..].
    all: intros H; right; assert (B : blind (net p q)) by (intros x y X Y; apply net_zero; intros [= -> ->]; congruence).
    all: destruct (P1 B) as [P3 P4]; destruct H as [H|H]; rewrite border_circ in H; [rewrite P3 in H|rewrite P4 in H].
    all: eapply found; [|exact H]; auto.
  - rewrite border_circ, circ_app, P2. apply found. auto.
Qed.
End Plane.
