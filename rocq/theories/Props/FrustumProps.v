(** * C86: corners and bounding box of a frustum *)
From Coq Require Import Reals List Bool Lra Psatz.
From Verif Require Import Model.Scalar Model.Vec Model.Plane Model.FrustumBox Spec.PlaneSpec Spec.FrustumSpec Proofs.VecLemmas Proofs.PlaneLemmas Proofs.PlaneLemmas2 Proofs.FrustumLemmas.
Import ListNotations.
Local Open Scope R_scope.

(** A far corner is reported if it is not behind the world origin along the edge between the far plane and the upper or lower plane; otherwise (0, 0, 0) is. *)
Theorem C86_corners_partial : forall alt neg f eps q, 0 <= eps ->
  let along top := cross (normal (ffar f)) (normal (upper top f)) in
  (is_corner alt f eps true true q -> left_top alt neg f eps = Some (if Rltb (dot q (along true)) 0 then vzero else q)) /\
  (is_corner alt f eps false true q -> left_bottom alt neg f eps = Some (if Rltb (dot q (along false)) 0 then vzero else q)) /\
  (is_corner alt f eps true false q -> right_top alt neg f eps = Some (if Rltb (dot q (along true)) 0 then vzero else q)) /\
  (is_corner alt f eps false false q -> right_bottom alt neg f eps = Some (if Rltb (dot q (along false)) 0 then vzero else q)).
Proof.
  intros alt neg f eps q He along. split; [|split; [|split]]; intros Q; exact (corner_found alt neg f eps _ _ q He Q).
Qed.
Print Assumptions C86_corners_partial.

(** If the foot of the world origin on such an edge is between its two corners, as for a symmetric view from the world origin, exactly one of the two is lost. *)
Theorem C86_corner_lost_refuted : forall alt neg f eps q r, 0 <= eps -> foot_between q r ->
  (is_corner alt f eps true true q -> is_corner alt f eps true false r ->
   left_top alt neg f eps = Some vzero /\ right_top alt neg f eps = Some r \/ left_top alt neg f eps = Some q /\ right_top alt neg f eps = Some vzero) /\
  (is_corner alt f eps false true q -> is_corner alt f eps false false r ->
   left_bottom alt neg f eps = Some vzero /\ right_bottom alt neg f eps = Some r \/ left_bottom alt neg f eps = Some q /\ right_bottom alt neg f eps = Some vzero).
Proof. intros alt neg f eps q r He F. split; intros Q R; exact (corner_lost alt neg f eps _ q r He Q R F). Qed.
Print Assumptions C86_corner_lost_refuted.

(** A frustum with a rectangular far side, in whatever position, never has all its corners reported. *)
Theorem C86_rectangle_refuted : forall alt neg f eps lt lb rt rb, 0 <= eps ->
  is_corner alt f eps true true lt -> is_corner alt f eps false true lb -> is_corner alt f eps true false rt -> is_corner alt f eps false false rb ->
  vsub rt lt = vsub rb lb -> lt <> rt -> dot (vsub rt lt) (vsub lb lt) = 0 -> side alt (ftop f) lb < 0 -> side alt (fbottom f) lt < 0 ->
  ~ (left_top alt neg f eps = Some lt /\ left_bottom alt neg f eps = Some lb /\ right_top alt neg f eps = Some rt /\ right_bottom alt neg f eps = Some rb).
Proof. exact rectangle_loses. Qed.
Print Assumptions C86_rectangle_refuted.

(** The box is the smallest one around the given origin and the reported corners. *)
Theorem C86_box_of_reported : forall alt neg f eps o b, frustum_box alt neg f eps o = Some b ->
  exists lt lb rt rb, left_top alt neg f eps = Some lt /\ left_bottom alt neg f eps = Some lb /\ right_top alt neg f eps = Some rt /\ right_bottom alt neg f eps = Some rb /\
  least_box b [o; lt; lb; rt; rb].
Proof. exact box_least. Qed.
Print Assumptions C86_box_of_reported.

(** If no corner is lost it contains everything between the origin and the corners. *)
Theorem C86_box_partial : forall alt neg f eps o lt lb rt rb, 0 <= eps ->
  is_corner alt f eps true true lt -> is_corner alt f eps false true lb -> is_corner alt f eps true false rt -> is_corner alt f eps false false rb ->
  let along top := cross (normal (ffar f)) (normal (upper top f)) in
  0 <= dot lt (along true) -> 0 <= dot lb (along false) -> 0 <= dot rt (along true) -> 0 <= dot rb (along false) ->
  exists b, frustum_box alt neg f eps o = Some b /\ forall x, in_pyramid o lt lb rt rb x -> in_box b x.
Proof.
  intros alt neg f eps o lt lb rt rb He LT LB RT RB along A1 A2 A3 A4.
  pose proof (corner_found alt neg f eps _ _ _ He LT) as E1. pose proof (corner_found alt neg f eps _ _ _ He LB) as E2. pose proof (corner_found alt neg f eps _ _ _ He RT) as E3. pose proof (corner_found alt neg f eps _ _ _ He RB) as E4.
  rewrite (proj2 (Rltb_false _ _)) in E1 by exact A1. rewrite (proj2 (Rltb_false _ _)) in E2 by exact A2. rewrite (proj2 (Rltb_false _ _)) in E3 by exact A3. rewrite (proj2 (Rltb_false _ _)) in E4 by exact A4.
  destruct (frustum_box alt neg f eps o) as [b|] eqn:E.
  - exists b. split; [reflexivity|]. destruct (box_least _ _ _ _ _ _ E) as (lt' & lb' & rt' & rb' & F1 & F2 & F3 & F4 & L).
    rewrite E1 in F1. rewrite E2 in F2. rewrite E3 in F3. rewrite E4 in F4. injection F1 as <-. injection F2 as <-. injection F3 as <-. injection F4 as <-.
    intros x. now apply pyramid_box.
  - exfalso. unfold frustum_box in E. change (left_top alt neg f eps) with (corner alt neg f eps true true) in E. change (left_bottom alt neg f eps) with (corner alt neg f eps false true) in E.
    change (right_top alt neg f eps) with (corner alt neg f eps true false) in E. change (right_bottom alt neg f eps) with (corner alt neg f eps false false) in E.
    rewrite E1, E2, E3, E4 in E. discriminate.
Qed.
Print Assumptions C86_box_partial.

(** A view along the third axis with a diamond as its far side. *)
Definition diamond : frustum :=
  mkFrustum (mkPlane (V3 0 0 (-1)) (-1 / 10)) (mkPlane (V3 (-1) (-1) (-1)) 0) (mkPlane (V3 1 1 (-1)) 0) (mkPlane (V3 (-1) 1 (-1)) 0) (mkPlane (V3 1 (-1) (-1)) 0) (mkPlane (V3 0 0 1) 1).
Lemma diamond_corners eps : 0 <= eps < 2 ->
  is_corner false diamond eps true true (V3 (-1) 0 1) /\ is_corner false diamond eps false true (V3 0 (-1) 1) /\
  is_corner false diamond eps true false (V3 0 1 1) /\ is_corner false diamond eps false false (V3 1 0 1).
Proof. intros He. unfold is_corner, on_plane, side, diamond, dot, cross. cbn. repeat split; lra. Qed.

(** Two of its corners are lost, and its bounding box misses points that are inside of the frustum. *)
Theorem C86_box_refuted : forall neg eps, 0 <= eps < 2 -> exists b x,
  frustum_box false neg diamond eps vzero = Some b /\ hull_point_inside false (frustum_planes diamond) x = true /\ in_pyramid vzero (V3 (-1) 0 1) (V3 0 (-1) 1) (V3 0 1 1) (V3 1 0 1) x /\ ~ in_box b x.
Proof.
  intros neg eps He. destruct (diamond_corners eps He) as (LT & LB & RT & RB).
  pose proof (corner_found false neg _ eps _ _ _ (proj1 He) LT) as E1. pose proof (corner_found false neg _ eps _ _ _ (proj1 He) LB) as E2.
  pose proof (corner_found false neg _ eps _ _ _ (proj1 He) RT) as E3. pose proof (corner_found false neg _ eps _ _ _ (proj1 He) RB) as E4.
  rewrite (proj2 (Rltb_false _ _)) in E1 by (unfold diamond, dot, cross; cbn; lra). rewrite (proj2 (Rltb_iff _ _)) in E2 by (unfold diamond, dot, cross; cbn; lra).
  rewrite (proj2 (Rltb_iff _ _)) in E3 by (unfold diamond, dot, cross; cbn; lra). rewrite (proj2 (Rltb_false _ _)) in E4 by (unfold diamond, dot, cross; cbn; lra).
  destruct (frustum_box false neg diamond eps vzero) as [b|] eqn:E.
  - exists b, (V3 0 (1 / 2) (1 / 2)). split; [reflexivity|]. destruct (box_least _ _ _ _ _ _ E) as (lt & lb & rt & rb & F1 & F2 & F3 & F4 & _ & L).
    rewrite E1 in F1. rewrite E2 in F2. rewrite E3 in F3. rewrite E4 in F4. injection F1 as <-. injection F2 as <-. injection F3 as <-. injection F4 as <-.
    split; [|split].
    + apply hull_point_iff. intros p I. unfold in_front, side, dot. cbn in I. destruct I as [<-|[<-|[<-|[<-|[<-|[<-|[]]]]]]]; cbn; lra.
    + exists (1 / 2), 0, 0, (1 / 2), 0. repeat split; try lra. unfold vadd, vscale, vzero. cbn. apply vec3_ext; cbn; lra.
    + intros B. specialize (L (mkAabb (V3 (-1) 0 0) (V3 1 0 1))). assert (G : in_box (mkAabb (V3 (-1) 0 0) (V3 1 0 1)) (V3 0 (1 / 2) (1 / 2))).
      { apply L; [|exact B]. intros p I. cbn in I. destruct I as [<-|[<-|[<-|[<-|[<-|[]]]]]]; unfold in_box, vzero; cbn; lra. }
      unfold in_box in G. cbn in G. lra.
  - exfalso. unfold frustum_box in E. change (left_top false neg diamond eps) with (corner false neg diamond eps true true) in E. change (left_bottom false neg diamond eps) with (corner false neg diamond eps false true) in E.
    change (right_top false neg diamond eps) with (corner false neg diamond eps true false) in E. change (right_bottom false neg diamond eps) with (corner false neg diamond eps false false) in E.
    rewrite E1, E2, E3, E4 in E. discriminate.
Qed.
Print Assumptions C86_box_refuted.

(** The condition of C86_corner_lost_refuted holds for it. *)
Example C86_example : foot_between (V3 (-1) 0 1) (V3 0 1 1) /\ is_corner false diamond 1 true true (V3 (-1) 0 1) /\ is_corner false diamond 1 true false (V3 0 1 1).
Proof.
  split; [|split; apply diamond_corners; lra]. exists (1 / 2). split; [lra|]. split; [unfold dot, vadd, vscale, vsub; cbn; lra|]. intros [=]. lra.
Qed.
(** The corners of a frustum with a rectangular far side, as C86_rectangle_refuted asks for. *)
Example C86_rectangle_example : let f := mkFrustum (mkPlane (V3 0 0 (-1)) (-1 / 10)) (mkPlane (V3 (-1) 0 (-1)) 0) (mkPlane (V3 1 0 (-1)) 0) (mkPlane (V3 0 1 (-1)) 0) (mkPlane (V3 0 (-1) (-1)) 0) (mkPlane (V3 0 0 1) 1) in
  is_corner false f 0 true true (V3 (-1) 1 1) /\ is_corner false f 0 false true (V3 (-1) (-1) 1) /\ is_corner false f 0 true false (V3 1 1 1) /\ is_corner false f 0 false false (V3 1 (-1) 1) /\
  side false (ftop f) (V3 (-1) (-1) 1) < 0 /\ side false (fbottom f) (V3 (-1) 1 1) < 0.
Proof. cbn zeta. unfold is_corner, on_plane, side, dot, cross. cbn. repeat split; lra. Qed.
(** A frustum with a slanted far side none of whose corners is lost, as C86_box_partial asks for. *)
Example C86_slanted_example : let f := mkFrustum (mkPlane (V3 0 0 (-1)) (-1 / 10)) (mkPlane (V3 (-2) (-3) (-1)) 0) (mkPlane (V3 2 3 (-1)) 0) (mkPlane (V3 0 1 (-1)) 0) (mkPlane (V3 0 (-1) (-1)) 0) (mkPlane (V3 0 0 1) 1) in
  let along top := cross (normal (ffar f)) (normal (upper top f)) in
  (is_corner false f 0 true true (V3 (-2) 1 1) /\ 0 <= dot (V3 (-2) 1 1) (along true)) /\ (is_corner false f 0 false true (V3 1 (-1) 1) /\ 0 <= dot (V3 1 (-1) 1) (along false)) /\
  (is_corner false f 0 true false (V3 (-1) 1 1) /\ 0 <= dot (V3 (-1) 1 1) (along true)) /\ (is_corner false f 0 false false (V3 2 (-1) 1) /\ 0 <= dot (V3 2 (-1) 1) (along false)).
Proof. cbn zeta. unfold is_corner, on_plane, side, dot, cross. cbn. repeat split; lra. Qed.
