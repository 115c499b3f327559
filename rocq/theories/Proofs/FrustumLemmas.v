(** Corners and bounding box of a frustum. *)
From Coq Require Import Reals List Bool Lra Psatz Nsatz.
From Verif Require Import Model.Scalar Model.Vec Model.Ext Model.Plane Model.FrustumBox Spec.PlaneSpec Spec.FrustumSpec Proofs.VecLemmas Proofs.PlaneLemmas Props.PlaneProps.
Import ListNotations.
Local Open Scope R_scope.

Definition corner (alt neg : bool) (f : frustum) (eps : R) (top left : bool) : option vec3 := corner_of_hit (plane_plane_plane alt neg (ffar f) (upper top f) (lateral left f) eps).
Lemma corner_found alt neg f eps top left q : 0 <= eps -> is_corner alt f eps top left q ->
  corner alt neg f eps top left = Some (if Rltb (dot q (cross (normal (ffar f)) (normal (upper top f)))) 0 then vzero else q).
Proof.
  intros He (A & B & C & D & E). unfold corner. destruct (C43_three_planes_partial alt neg (ffar f) (upper top f) (lateral left f) eps He) as [_ K].
  destruct (plane_plane alt (ffar f) (upper top f) eps) as [r|] eqn:P.
  2: { unfold plane_plane in P. replace (Rltb eps _) with true in P by (symmetry; apply Rltb_iff; exact E). discriminate. }
  destruct (K r eq_refl D) as (x & _ & _ & _ & U & ->). assert (q = x) as <- by (apply U; assumption).
  assert (R : rdirection r = cross (normal (ffar f)) (normal (upper top f)) /\ dot (rorigin r) (rdirection r) = 0).
  { unfold plane_plane in P. destruct (Rltb eps _); [|discriminate]. injection P as <-. cbn [rdirection rorigin]. split; [reflexivity|].
    set (d := cross _ _). set (v := vsub _ _). set (k := / _). unfold dot, cross, vscale. cbn [vx vy vz]. ring. }
  destruct R as [R1 R2]. rewrite <- R1. replace (dot (vsub q (rorigin r)) (rdirection r)) with (dot q (rdirection r)) by (revert R2; unfold dot, vsub; cbn [vx vy vz]; lra).
  destruct (Rltb _ 0); reflexivity.
Qed.
(** Two corners on the edge between the far plane and a side plane differ by a multiple of the direction of that edge. *)
Lemma edge_direction alt f eps top q r : is_corner alt f eps top true q -> is_corner alt f eps top false r -> 0 <= eps ->
  exists s, vsub r q = vscale s (cross (normal (ffar f)) (normal (upper top f))).
Proof.
  intros (A & B & _ & _ & E) (A' & B' & _) He. set (n := normal (ffar f)) in *. set (m := normal (upper top f)) in *. set (d := cross n m) in *.
  assert (N : dot n (vsub r q) = 0) by (unfold on_plane, side in A, A'; fold n in A, A'; unfold dot, vsub in *; cbn [vx vy vz]; destruct alt; lra).
  assert (M : dot m (vsub r q) = 0) by (unfold on_plane, side in B, B'; fold m in B, B'; unfold dot, vsub in *; cbn [vx vy vz]; destruct alt; lra).
  assert (DD : dot d d <> 0) by lra.
  exists (dot (vsub r q) d / dot d d). set (v := vsub r q) in *. clearbody v.
  assert (G : vscale (dot d d) v = vscale (dot v d) d).
  { unfold d in *. destruct n as [n1 n2 n3], m as [m1 m2 m3], v as [v1 v2 v3]. unfold dot, cross, vscale in *. cbn [vx vy vz] in *. clear - N M.
    apply vec3_ext; cbn [vx vy vz].
    - nsatz.
    - nsatz.
    - nsatz. }
  transitivity (vscale (/ dot d d) (vscale (dot d d) v)).
  - destruct v as [v1 v2 v3]. unfold vscale. cbn [vx vy vz]. apply vec3_ext; cbn [vx vy vz]; field; exact DD.
  - rewrite G. destruct d as [d1 d2 d3]. unfold vscale. cbn [vx vy vz]. apply vec3_ext; cbn [vx vy vz]; field; exact DD.
Qed.
Lemma corner_lost alt neg f eps top q r : 0 <= eps -> is_corner alt f eps top true q -> is_corner alt f eps top false r -> foot_between q r ->
  corner alt neg f eps top true = Some vzero /\ corner alt neg f eps top false = Some r \/
  corner alt neg f eps top true = Some q /\ corner alt neg f eps top false = Some vzero.
Proof.
  intros He Q R (t & T & F & NE). rewrite (corner_found _ _ _ _ _ _ _ He Q), (corner_found _ _ _ _ _ _ _ He R).
  destruct (edge_direction _ _ _ _ _ _ Q R He) as [s S]. rewrite S in F. set (d := cross _ _) in *.
  assert (DD : 0 < dot d d) by (destruct Q as (_ & _ & _ & _ & E); fold d in E; lra).
  assert (SN : s <> 0).
  { intros ->. apply NE. destruct q as [q1 q2 q3], r as [r1 r2 r3]. unfold vsub, vscale in S. cbn [vx vy vz] in S. injection S as S1 S2 S3. f_equal; lra. }
  assert (RQ : dot r d = dot q d + s * dot d d).
  { assert (G : dot (vsub r q) d = dot (vscale s d) d) by now rewrite S. revert G. unfold dot, vsub, vscale. cbn [vx vy vz]. intros G. lra. }
  assert (FQ : dot q d + t * s * dot d d = 0).
  { assert (G : s * (dot q d + t * s * dot d d) = 0).
    { rewrite <- F. unfold dot, vadd, vscale. cbn [vx vy vz]. ring. }
    apply Rmult_integral in G. tauto. }
  destruct (Rltb (dot q d) 0) eqn:E1, (Rltb (dot r d) 0) eqn:E2; try (apply Rltb_iff in E1); try (apply Rltb_iff in E2); try (apply Rltb_false in E1); try (apply Rltb_false in E2); auto; exfalso.
  - assert (0 < s) by nra. assert (0 < s * dot d d) by nra. nra.
  - assert (0 <= s * dot d d + t * s * dot d d * -1) by lra. assert (s <= 0) by (destruct (Rle_or_lt s 0); [assumption|assert (0 < t * s) by nra; nra]).
    assert (0 < - s * dot d d) by nra. nra.
Qed.

Lemma insert_least b p ps : least_box b ps -> ps <> [] -> least_box (insert_point3 b p) (ps ++ [p]).
Proof.
  intros [H1 H2] N. assert (BB : in_box b (bmin b) /\ in_box b (bmax b)).
  { destruct ps as [|q ps]; [congruence|]. specialize (H1 q (or_introl eq_refl)). unfold in_box in *. lra. }
  split.
  - intros q I. apply in_app_or in I. unfold in_box, insert_point3. cbn [bmin bmax vx vy vz].
    assert (L : forall x a, (if Rltb x a then x else a) <= x /\ (if Rltb x a then x else a) <= a).
    { intros x a. destruct (Rltb x a) eqn:E; [apply Rltb_iff in E|apply Rltb_false in E]; lra. }
    assert (G : forall x a, x <= (if Rltb a x then x else a) /\ a <= (if Rltb a x then x else a)).
    { intros x a. destruct (Rltb a x) eqn:E; [apply Rltb_iff in E|apply Rltb_false in E]; lra. }
    pose proof (L (vx p) (vx (bmin b))). pose proof (L (vy p) (vy (bmin b))). pose proof (L (vz p) (vz (bmin b))).
    pose proof (G (vx p) (vx (bmax b))). pose proof (G (vy p) (vy (bmax b))). pose proof (G (vz p) (vz (bmax b))).
    destruct I as [I|[<-|[]]]; [specialize (H1 q I); unfold in_box in H1|]; lra.
  - intros c C x. assert (P : in_box c p) by (apply C, in_or_app; right; now left).
    assert (B : forall y, in_box b y -> in_box c y) by (apply H2; intros q I; apply C, in_or_app; now left).
    pose proof (B _ (proj1 BB)) as B1. pose proof (B _ (proj2 BB)) as B2. unfold in_box, insert_point3. cbn [bmin bmax vx vy vz]. unfold in_box in *. clear - P B1 B2.
    assert (L : forall x a l, l <= x -> l <= a -> l <= (if Rltb x a then x else a)) by (intros y a l X A; destruct (Rltb y a); lra).
    assert (G : forall x a l, x <= l -> a <= l -> (if Rltb a x then x else a) <= l) by (intros y a l X A; destruct (Rltb a y); lra).
    pose proof (L (vx p) (vx (bmin b)) (vx (bmin c))). pose proof (L (vy p) (vy (bmin b)) (vy (bmin c))). pose proof (L (vz p) (vz (bmin b)) (vz (bmin c))).
    pose proof (G (vx p) (vx (bmax b)) (vx (bmax c))). pose proof (G (vy p) (vy (bmax b)) (vy (bmax c))). pose proof (G (vz p) (vz (bmax b)) (vz (bmax c))). lra.
Qed.
Lemma box_least alt neg f eps o b : frustum_box alt neg f eps o = Some b ->
  exists lt lb rt rb, corner alt neg f eps true true = Some lt /\ corner alt neg f eps false true = Some lb /\ corner alt neg f eps true false = Some rt /\ corner alt neg f eps false false = Some rb /\
  least_box b [o; lt; lb; rt; rb].
Proof.
  unfold frustum_box. change (left_top alt neg f eps) with (corner alt neg f eps true true). change (left_bottom alt neg f eps) with (corner alt neg f eps false true).
  change (right_top alt neg f eps) with (corner alt neg f eps true false). change (right_bottom alt neg f eps) with (corner alt neg f eps false false).
  destruct (corner _ _ _ _ true true) as [lt|], (corner _ _ _ _ false true) as [lb|], (corner _ _ _ _ true false) as [rt|], (corner _ _ _ _ false false) as [rb|]; try discriminate.
  intros [= <-]. exists lt, lb, rt, rb. repeat (split; [reflexivity|]). cbn [fold_left].
  assert (B0 : least_box (mkAabb o o) [o]).
  { split; [intros p [<-|[]]; unfold in_box; cbn; lra|]. intros c C x X. specialize (C o (or_introl eq_refl)). unfold in_box in *. cbn in X. lra. }
  change [o; lt; lb; rt; rb] with (((([o] ++ [lt]) ++ [lb]) ++ [rt]) ++ [rb]). repeat (apply insert_least; [|discriminate]). exact B0.
Qed.
Lemma pyramid_box o lt lb rt rb b x : least_box b [o; lt; lb; rt; rb] -> in_pyramid o lt lb rt rb x -> in_box b x.
Proof.
  intros [H _] (w0 & w1 & w2 & w3 & w4 & W0 & W1 & W2 & W3 & W4 & WS & ->).
  assert (H0 := H o ltac:(cbn; tauto)). assert (H1 := H lt ltac:(cbn; tauto)). assert (H2 := H lb ltac:(cbn; tauto)). assert (H3 := H rt ltac:(cbn; tauto)). assert (H4 := H rb ltac:(cbn; tauto)).
  assert (G : forall lo hi a0 a1 a2 a3 a4, lo <= a0 <= hi -> lo <= a1 <= hi -> lo <= a2 <= hi -> lo <= a3 <= hi -> lo <= a4 <= hi -> lo <= w0 * a0 + (w1 * a1 + (w2 * a2 + (w3 * a3 + w4 * a4))) <= hi).
  { intros lo hi a0 a1 a2 a3 a4 A0 A1 A2 A3 A4.
    assert (Q : forall w a, 0 <= w -> lo <= a <= hi -> w * lo <= w * a <= w * hi) by (intros w a Wp [L1 L2]; split; apply Rmult_le_compat_l; assumption).
    pose proof (Q w0 a0 W0 A0). pose proof (Q w1 a1 W1 A1). pose proof (Q w2 a2 W2 A2). pose proof (Q w3 a3 W3 A3). pose proof (Q w4 a4 W4 A4).
    replace lo with ((w0 + w1 + w2 + w3 + w4) * lo) by (rewrite WS; ring). replace hi with ((w0 + w1 + w2 + w3 + w4) * hi) by (rewrite WS; ring). lra. }
  unfold in_box in *. unfold vadd, vscale. cbn [vx vy vz]. split; [|split]; apply G; lra.
Qed.

(** A rectangular far side always loses a corner. *)
Lemma rectangle_loses alt neg f eps lt lb rt rb : 0 <= eps ->
  is_corner alt f eps true true lt -> is_corner alt f eps false true lb -> is_corner alt f eps true false rt -> is_corner alt f eps false false rb ->
  vsub rt lt = vsub rb lb -> lt <> rt -> dot (vsub rt lt) (vsub lb lt) = 0 -> side alt (ftop f) lb < 0 -> side alt (fbottom f) lt < 0 ->
  ~ (corner alt neg f eps true true = Some lt /\ corner alt neg f eps false true = Some lb /\ corner alt neg f eps true false = Some rt /\ corner alt neg f eps false false = Some rb).
Proof.
  intros He LT LB RT RB PAR NE PERP ST SB (E1 & E2 & E3 & E4).
  assert (K : forall top left q, is_corner alt f eps top left q -> corner alt neg f eps top left = Some q -> 0 <= dot q (cross (normal (ffar f)) (normal (upper top f)))).
  { intros top left q Q E. rewrite (corner_found _ _ _ _ _ _ _ He Q) in E. destruct (Rltb _ 0) eqn:B; [|now apply Rltb_false in B].
    injection E as <-. unfold dot, vzero. cbn [vx vy vz]. lra. }
  apply K in E1; [|exact LT]. apply K in E2; [|exact LB]. apply K in E3; [|exact RT]. apply K in E4; [|exact RB]. clear K.
  destruct (edge_direction _ _ _ _ _ _ LT RT He) as [s S]. destruct (edge_direction _ _ _ _ _ _ LB RB He) as [s' S'].
  destruct LT as (N1 & T1 & _ & _ & G1). destruct LB as (N2 & T2 & _ & _ & G2). destruct RT as (N3 & T3 & _). destruct RB as (N4 & T4 & _).
  cbn [upper] in *. set (n := normal (ffar f)) in *. set (a := normal (ftop f)) in *. set (b := normal (fbottom f)) in *.
  set (e := vsub rt lt) in *. set (g := vsub lb lt) in *.
  assert (NE' : dot n e = 0) by (unfold on_plane, side in N1, N3; fold n in N1, N3; unfold e, dot, vsub in *; cbn [vx vy vz]; destruct alt; lra).
  assert (NG : dot n g = 0) by (unfold on_plane, side in N1, N2; fold n in N1, N2; unfold g, dot, vsub in *; cbn [vx vy vz]; destruct alt; lra).
  assert (AG : dot a g < 0) by (unfold on_plane, side in T1, ST; fold a in T1, ST; unfold g, dot, vsub in *; cbn [vx vy vz]; destruct alt; lra).
  assert (BG : 0 < dot b g) by (unfold on_plane, side in T2, SB; fold b in T2, SB; unfold g, dot, vsub in *; cbn [vx vy vz]; destruct alt; lra).
  assert (EE : 0 < dot e e).
  { destruct (Req_dec (dot e e) 0) as [Z|Z]; [|pose proof (dot_self_ge e); lra]. exfalso. apply NE. apply dot_self_0 in Z. unfold e in Z. destruct lt as [x y z], rt as [x' y' z']. unfold vsub, vzero in Z. cbn [vx vy vz] in Z.
    injection Z as Z1 Z2 Z3. f_equal; lra. }
  assert (SD : 0 < s * dot (cross n a) e) by (replace (s * dot (cross n a) e) with (dot e e); [exact EE|]; rewrite S at 1; unfold dot, vscale; cbn [vx vy vz]; ring).
  assert (SD' : 0 < s' * dot (cross n b) e).
  { replace (s' * dot (cross n b) e) with (dot e e); [exact EE|]. rewrite PAR at 1. rewrite S'. unfold dot, vscale; cbn [vx vy vz]; ring. }
  (* the two edge directions are opposite *)
  assert (ID : forall c, dot (cross n c) e * dot g g = dot c g * dot (cross e n) g).
  { intros c. clear - NE' NG PERP. clearbody n e g. destruct n as [n1 n2 n3], c as [a1 a2 a3], e as [e1 e2 e3], g as [g1 g2 g3]. unfold dot, cross in *. cbn [vx vy vz] in *. nsatz. }
  assert (OPP : dot (cross n a) e * dot (cross n b) e < 0).
  { pose proof (ID a) as I1. pose proof (ID b) as I2. set (m := dot (cross e n) g) in *. set (k := dot g g) in *. set (p := dot (cross n a) e) in *. set (q := dot (cross n b) e) in *. set (u := dot a g) in *. set (v := dot b g) in *.
    assert (KP : 0 <= k) by apply dot_self_ge.
    assert (KN : k <> 0).
    { intros Z. apply dot_self_0 in Z. unfold u in AG. rewrite Z in AG. unfold dot, vzero in AG. cbn [vx vy vz] in AG. lra. }
    assert (PN : p <> 0) by (intros Z; rewrite Z in SD; lra).
    assert (MN : m <> 0) by (intros Z; rewrite Z, Rmult_0_r in I1; apply Rmult_integral in I1; tauto).
    assert (Q : (p * q) * (k * k) = (u * v) * (m * m)) by (replace (p * q * (k * k)) with ((p * k) * (q * k)) by ring; rewrite I1, I2; ring).
    assert (0 < k * k) by nra. assert (0 < m * m) by nra. assert (u * v < 0) by nra. assert ((u * v) * (m * m) < 0) by nra. nra. }
  assert (X1 : dot lt e = s * dot lt (cross n a)) by (rewrite S; unfold dot, vscale; cbn [vx vy vz]; ring).
  assert (X2 : dot lb e = s' * dot lb (cross n b)) by (rewrite PAR, S'; unfold dot, vscale; cbn [vx vy vz]; ring).
  assert (X3 : dot rt e = s * dot rt (cross n a)) by (rewrite S; unfold dot, vscale; cbn [vx vy vz]; ring).
  assert (X4 : dot rb e = s' * dot rb (cross n b)) by (rewrite PAR, S'; unfold dot, vscale; cbn [vx vy vz]; ring).
  assert (Y1 : dot lb e = dot lt e) by (clear - PERP; revert PERP; unfold g; unfold dot, vsub; cbn [vx vy vz]; lra).
  assert (Y2 : dot rt e = dot lt e + dot e e) by (clear; unfold e; unfold dot, vsub; cbn [vx vy vz]; ring).
  assert (Y3 : dot rb e = dot lb e + dot e e).
  { replace (dot e e) with (dot (vsub rb lb) e) by now rewrite <- PAR. clear. unfold dot, vsub; cbn [vx vy vz]; ring. }
  assert (SS : s * s' < 0).
  { set (p := dot (cross n a) e) in *. set (q := dot (cross n b) e) in *. clear - SD SD' OPP. destruct (Rlt_or_le (s * s') 0) as [L|L]; [exact L|exfalso]. assert (0 < (s * p) * (s' * q)) by nra. replace ((s * p) * (s' * q)) with ((s * s') * (p * q)) in H by ring. nra. }
  set (x := dot lt e) in *. set (ee := dot e e) in *. clear - X1 X2 X3 X4 Y1 Y2 Y3 SS EE E1 E2 E3 E4.
  destruct (Rlt_or_le 0 s) as [L|L].
  - assert (s' < 0) by nra. assert (0 <= x) by nra. assert (0 <= x + ee) by lra. assert (dot rb e <= 0) by nra. lra.
  - assert (s < 0) by nra. assert (0 < s') by nra. assert (dot rt e <= 0) by nra. assert (0 <= dot lb e) by nra. lra.
Qed.
