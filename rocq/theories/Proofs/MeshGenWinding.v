(** Triangles of the mesh generators face outwards. *)
From Coq Require Import ZArith Reals List Bool Arith Lia Lra.
From Verif Require Import Model.Scalar Model.Vec Model.Aabb Model.Mesh Model.Interp Model.Bezier Model.Transforms Model.MeshGen Spec.MeshGenSpec Spec.SurfaceSpec
  Spec.WindingSpec Proofs.VecLemmas Proofs.MeshGenLoops Proofs.MeshGenResult Proofs.MeshGenInv Proofs.MeshGenTotal Proofs.MeshGenMain Proofs.MeshGenSurface
  Proofs.MeshGenChains Proofs.MeshGenClosed.
Import ListNotations.
Local Open Scope R_scope.

Ltac vecs := unfold dot, cross, vadd, vsub, vopp, vscale, vzero in *; cbn [vx vy vz] in *.

(** Trapezoids: b - a and c - d are multiples of e, d - a is m. *)
Definition trapezoid (N : vertex -> vec3) (flip : bool) (a b c d : vertex) : Prop := exists e m r r',
  0 <= r /\ 0 <= r' /\ position b = vadd (position a) (vscale r e) /\ position d = vadd (position a) m /\ position c = vadd (position d) (vscale r' e) /\
  let k := if flip then cross m e else cross e m in k = vzero \/ (0 < dot k (N a) /\ 0 < dot k (N b) /\ 0 < dot k (N c) /\ 0 < dot k (N d)).

Lemma faces_scaled N a b c k g : front (a, b, c) = vscale k g -> 0 <= k -> g = vzero \/ (0 < dot g (N a) /\ 0 < dot g (N b) /\ 0 < dot g (N c)) -> faces N (a, b, c).
Proof.
  intros E K H. unfold faces. rewrite E. destruct K as [K|<-].
  - destruct H as [->|(A & B & C)]; [left; apply vec3_ext; vecs; ring|right].
    assert (D : forall n, dot (vscale k g) n = k * dot g n) by (intros; vecs; ring). rewrite !D. repeat split; now apply Rmult_lt_0_compat.
  - left. apply vec3_ext; vecs; ring.
Qed.
Ltac face r g := apply (faces_scaled _ _ _ _ r g); [|assumption|tauto]; unfold front;
  repeat match goal with H : position ?x = _ |- context [position ?x] => rewrite H end; apply vec3_ext; vecs; ring.

Lemma quad_fwd N ac a b c d : trapezoid N false a b c d -> Forall (faces N) (cut ac a b c d).
Proof.
  intros (e & m & r & r' & P & P' & B & D & C & K). cbn zeta in K. unfold cut. destruct ac; repeat apply Forall_cons; try apply Forall_nil.
  - face r (cross e m).
  - face r' (cross e m).
  - face r (cross e m).
  - face r' (cross e m).
Qed.
Lemma quad_rev N ac a b c d : trapezoid N true a b c d -> Forall (faces N) (cut ac b a d c).
Proof.
  intros (e & m & r & r' & P & P' & B & D & C & K). cbn zeta in K. unfold cut. destruct ac; repeat apply Forall_cons; try apply Forall_nil.
  - face r (cross m e).
  - face r' (cross m e).
  - face r (cross m e).
  - face r' (cross m e).
Qed.
Lemma tri_fwd N a b c d : trapezoid N false a b c d -> faces N (c, d, a).
Proof. intros (e & m & r & r' & P & P' & B & D & C & K). cbn zeta in K. face r' (cross e m). Qed.
Lemma tri_rev N a b c d : trapezoid N true a b c d -> faces N (a, d, c).
Proof. intros (e & m & r & r' & P & P' & B & D & C & K). cbn zeta in K. face r' (cross m e). Qed.

Definition cell_trap (N : vertex -> vec3) (f : nat -> nat -> vertex) (o : order) (i j : nat) : Prop :=
  match o with
  | O0 => trapezoid N false (f i j) (f (i + 1)%nat j) (f (i + 1)%nat (j + 1)%nat) (f i (j + 1)%nat)
  | O1 => trapezoid N true (f i j) (f (i + 1)%nat j) (f (i + 1)%nat (j + 1)%nat) (f i (j + 1)%nat)
  | O2 => trapezoid N false (f i j) (f i (j + 1)%nat) (f (i + 1)%nat (j + 1)%nat) (f (i + 1)%nat j)
  | O3 => trapezoid N true (f i j) (f i (j + 1)%nat) (f (i + 1)%nat (j + 1)%nat) (f (i + 1)%nat j)
  end.
Lemma map_cut {A B} (g : A -> B) ac a b c d : map (tmap g) (cut ac a b c d) = cut ac (g a) (g b) (g c) (g d).
Proof. destruct ac; reflexivity. Qed.
Lemma cell_faces N f o ac i j : cell_trap N f o i j -> Forall (faces N) (map (tmap (fun l => f (fst l) (snd l))) (cell o ac i j)).
Proof. destruct o; cbn [cell cell_trap]; rewrite map_cut; cbn [fst snd]; [apply quad_fwd|apply quad_rev|apply quad_fwd|apply quad_rev]. Qed.
Lemma Forall_map_flat {A B} (P : B -> Prop) (g : A -> B) (h : nat -> list A) l : (forall i, In i l -> Forall P (map g (h i))) -> Forall P (map g (flat_map h l)).
Proof. intros H. apply Forall_forall. intros x X. apply in_map_iff in X. destruct X as (y & <- & Y). apply in_flat_map in Y. destruct Y as (i & I & Y).
  specialize (H i I). rewrite Forall_forall in H. apply H. now apply in_map. Qed.

Lemma grid_faces N f o ac M C : (forall i j, (i < M)%nat -> (j < C)%nat -> cell_trap N f o i j) ->
  Forall (faces N) (map (tmap (fun l => f (fst l) (snd l))) (grid o ac M C)).
Proof. intros H. apply Forall_map_flat. intros i Hi. apply Forall_map_flat. intros j Hj. apply in_seq in Hi, Hj. apply cell_faces, H; lia. Qed.
Lemma disc_faces N f (up : bool) ac H K : (0 < K)%nat -> (forall i, f i 0%nat = f 0%nat 0%nat) -> (forall i j, (i < H)%nat -> (j < K)%nat -> cell_trap N f (if up then O1 else O0) i j) ->
  Forall (faces N) (map (tmap (fun l => f (fst l) (snd l))) (disc up ac H K)).
Proof.
  intros P E T. apply Forall_map_flat. intros i Hi. apply in_seq in Hi. cbn [map]. apply Forall_cons.
  - specialize (T i 0%nat ltac:(lia) P). destruct up; cbn [tmap fst snd]; cbn [cell_trap] in T; rewrite <- (E i); [now apply tri_rev in T|now apply tri_fwd in T].
  - apply Forall_map_flat. intros j Hj. apply in_seq in Hj. apply cell_faces, T; lia.
Qed.
Lemma cone_faces N f ac H V : (0 < V)%nat -> (forall i j, (i < H)%nat -> (j < V)%nat -> cell_trap N f O1 i j) ->
  Forall (faces N) (map (tmap (fun l => f (fst l) (snd l))) (cone_fan ac H V)).
Proof.
  intros P T. apply Forall_map_flat. intros i Hi. apply in_seq in Hi. cbn [map]. apply Forall_cons.
  - specialize (T i 0%nat ltac:(lia) P). cbn [tmap fst snd]. cbn [cell_trap] in T. now apply tri_rev in T.
  - apply Forall_map_flat. intros j Hj. apply in_seq in Hj. apply cell_faces, T; lia.
Qed.

(** ** The parts *)
Lemma frac_next j n : frac (j + 1) n = frac j n + 1 / INR n.
Proof. unfold frac. rewrite plus_INR. cbn [INR]. ring. Qed.
Lemma angle_next a s i : at_angle a s (i + 1) = at_angle a s i + s.
Proof. unfold at_angle. rewrite plus_INR. cbn [INR]. ring. Qed.
Lemma turn_det a s : sin (a + s) * cos a - cos (a + s) * sin a = sin s.
Proof. rewrite <- sin_minus. f_equal. ring. Qed.
Lemma normalize_id v : dot v v = 1 -> normalize v = v.
Proof.
  intros H. unfold normalize. rewrite H. destruct (Reqb 1 0); [reflexivity|].
  replace (Reqb 1 1) with true by (symmetry; now apply Reqb_iff). reflexivity.
Qed.
Lemma unit_xz a : normalize (V3 (sin a) 0 (cos a)) = V3 (sin a) 0 (cos a).
Proof. apply normalize_id. vecs. pose proof (sc2 a). nra. Qed.
Lemma inv_pos n : (0 < n)%nat -> 0 < 1 / INR n.
Proof. intros H. apply Rmult_lt_0_compat; [lra|]. apply Rinv_0_lt_compat, lt_0_INR, H. Qed.

(** It is enough to give the products with the corners. *)
Lemma trap_intro N (flip : bool) a b c d e m r r' : 0 <= r -> 0 <= r' -> position b = vadd (position a) (vscale r e) -> position d = vadd (position a) m ->
  position c = vadd (position d) (vscale r' e) ->
  (let k := if flip then cross m e else cross e m in k = vzero \/ (0 < dot k (N a) /\ 0 < dot k (N b) /\ 0 < dot k (N c) /\ 0 < dot k (N d))) ->
  trapezoid N flip a b c d.
Proof. intros. exists e, m, r, r'. repeat split; assumption. Qed.
Lemma flip_sign (flip : bool) m e n : dot (if flip then cross m e else cross e m) n = (if flip then 1 else -1) * dot (cross m e) n.
Proof. destruct flip; vecs; ring. Qed.

Ltac products := repeat first [assumption | apply Rmult_lt_0_compat]; try lra.
Ltac value x := match goal with |- 0 < ?y => replace y with x; [products|] end.

Section Mantle.
Variables (rx rz half start step : R) (H V i j : nat).
Hypothesis PV : (0 < V)%nat.
Hypothesis Phalf : 0 < half.
Let vm (side : R) (i j : nat) := mantle_vertex rx rz half side H V (at_angle start step i) i j.

Lemma mantle_trap N (rev : bool) side k : 0 <= rx -> 0 <= rz ->
  step = 0 \/ 0 < sin step /\ 0 < k /\ (forall i' j', i' = i \/ i' = (i + 1)%nat -> j' = j \/ j' = (j + 1)%nat ->
    let s := sin (at_angle start step i) in let c := cos (at_angle start step i) in
    let s' := sin (at_angle start step i + step) in let c' := cos (at_angle start step i + step) in
    vz (N (vm side i' j')) * (rx * (s' - s)) - vx (N (vm side i' j')) * (rz * (c' - c)) = (if rev then -1 else 1) * k * sin step) ->
  cell_trap N (vm side) (if rev then O0 else O1) i j.
Proof.
  intros X Z K. set (s := sin (at_angle start step i)) in *. set (c := cos (at_angle start step i)) in *.
  assert (T : trapezoid N (negb rev) (vm side i j) (vm side (i + 1) j) (vm side (i + 1) (j + 1)) (vm side i (j + 1))).
  { pose proof (inv_pos V PV) as PI. apply (trap_intro _ _ _ _ _ _
      (V3 (rx * (sin (at_angle start step i + step) - s)) 0 (rz * (cos (at_angle start step i + step) - c))) (V3 0 (- 2 * half * (1 / INR V)) 0) 1 1); [lra|lra| | | |].
    1-3: unfold vm, mantle_vertex, lerp; cbn [position]; rewrite ?frac_next, ?angle_next; fold s c; apply vec3_ext; vecs; ring.
    destruct K as [-> | (D & K0 & K)].
    - left. rewrite Rplus_0_r. fold s c. destruct rev; cbn [negb]; apply vec3_ext; vecs; ring.
    - right. assert (G : forall i' j', i' = i \/ i' = (i + 1)%nat -> j' = j \/ j' = (j + 1)%nat ->
        0 < dot (if negb rev then cross (V3 0 (- 2 * half * (1 / INR V)) 0) (V3 (rx * (sin (at_angle start step i + step) - s)) 0 (rz * (cos (at_angle start step i + step) - c)))
          else cross (V3 (rx * (sin (at_angle start step i + step) - s)) 0 (rz * (cos (at_angle start step i + step) - c))) (V3 0 (- 2 * half * (1 / INR V)) 0)) (N (vm side i' j'))).
      { intros i' j' Hi Hj. specialize (K i' j' Hi Hj). cbn zeta in K. rewrite flip_sign.
        value ((2 * half * (1 / INR V)) * (k * sin step)). destruct rev; cbn [negb]; vecs.
        - replace (k * sin step) with (- (-1 * k * sin step)) by ring. rewrite <- K. ring.
        - replace (k * sin step) with (1 * k * sin step) by ring. rewrite <- K. ring. }
      repeat split; apply G; auto. }
  destruct rev; exact T.
Qed.
End Mantle.

Lemma mantle_normals r half start step H V i j rev : 0 < r -> 0 < half -> (0 < V)%nat -> step = 0 \/ 0 < sin step ->
  cell_trap normal (fun i j => mantle_vertex r r half (if rev : bool then -1 else 1) H V (at_angle start step i) i j) (if rev then O0 else O1) i j.
Proof.
  intros R0 Ph PV S. apply (mantle_trap r r half start step H V i j PV Ph normal rev (if rev then -1 else 1) r); [lra|lra|].
  destruct S as [S|S]; [now left|right]. split; [assumption|]. split; [assumption|]. intros i' j' Hi _. cbn zeta. unfold mantle_vertex. cbn [normal]. rewrite unit_xz. vecs.
  rewrite <- (turn_det (at_angle start step i) step). destruct Hi as [-> | ->]; rewrite ?angle_next; destruct rev; ring.
Qed.
Lemma mantle_positions rx rz half start step H V i j : 0 < rx -> 0 < rz -> 0 < half -> (0 < V)%nat -> 0 < sin step ->
  cell_trap position (fun i j => mantle_vertex rx rz half 1 H V (at_angle start step i) i j) O1 i j.
Proof.
  intros X Z Ph PV S. apply (mantle_trap rx rz half start step H V i j PV Ph position false 1 (rx * rz)); [lra|lra|].
  right. split; [assumption|]. split; [products|]. intros i' j' Hi _. cbn zeta. unfold mantle_vertex. cbn [position]. vecs.
  rewrite <- (turn_det (at_angle start step i) step). destruct Hi as [-> | ->]; rewrite ?angle_next; ring.
Qed.

(** Corners that are known to be one of four *)
Lemma trap_all N (flip : bool) (f : nat -> nat -> vertex) i j e m r r' (row : bool) : 0 <= r -> 0 <= r' ->
  let b := if row then f i (j + 1)%nat else f (i + 1)%nat j in
  let d := if row then f (i + 1)%nat j else f i (j + 1)%nat in
  position b = vadd (position (f i j)) (vscale r e) -> position d = vadd (position (f i j)) m ->
  position (f (i + 1)%nat (j + 1)%nat) = vadd (position d) (vscale r' e) ->
  cross m e = vzero \/ (forall i' j', i' = i \/ i' = (i + 1)%nat -> j' = j \/ j' = (j + 1)%nat -> 0 < (if flip then 1 else -1) * dot (cross m e) (N (f i' j'))) ->
  cell_trap N f (if row then if flip then O3 else O2 else if flip then O1 else O0) i j.
Proof.
  intros P P' b d B D C K. assert (T : trapezoid N flip (f i j) b (f (i + 1)%nat (j + 1)%nat) d).
  { apply (trap_intro _ _ _ _ _ _ e m r r'); try assumption. destruct K as [K|K].
    - left. destruct flip; [assumption|]. assert (E : cross e m = vopp (cross m e)) by (apply vec3_ext; vecs; ring). rewrite E, K. apply vec3_ext; vecs; ring.
    - right. rewrite !flip_sign. unfold b, d. destruct row; repeat split; apply K; auto. }
  unfold b, d in T. destruct row, flip; exact T.
Qed.

Section Disc.
Variables (rx rz y start step side : R) (up : bool) (H K i j : nat).
Let fd (i j : nat) := if (j =? 0)%nat then disc_center y side else disc_vertex rx rz y side up K (at_angle start step i) j.
Lemma disc_position u v : position (fd u v) = dq start step rx rz y K u v.
Proof. unfold fd. destruct v as [|v']; cbn [Nat.eqb]; [unfold dq; rewrite frac0|]; apply vec3_ext; cbn -[frac]; ring. Qed.
Lemma disc_trap N : 0 < rx -> 0 < rz -> (0 < K)%nat -> (j < K)%nat -> step = 0 \/ 0 < sin step -> (forall i' j', 0 < (if up then 1 else -1) * vy (N (fd i' j'))) ->
  cell_trap N fd (if up then O1 else O0) i j.
Proof.
  intros X Z PK Hj S NY. pose proof (inv_pos K PK) as IK.
  assert (F : 0 <= frac j K <= 1) by (apply frac_bounds; lia). assert (F' : 0 <= frac (j + 1) K <= 1) by (apply frac_bounds; lia).
  set (s := sin (at_angle start step i)). set (c := cos (at_angle start step i)). set (s' := sin (at_angle start step i + step)). set (c' := cos (at_angle start step i + step)).
  apply (trap_all N up fd i j (V3 (rx * (s' - s)) 0 (rz * (c' - c))) (V3 (1 / INR K * (s * rx)) 0 (1 / INR K * (c * rz))) (frac j K) (frac (j + 1) K) false); [lra|lra| | | |].
  1-3: cbn zeta beta iota; rewrite !disc_position; unfold dq; rewrite ?angle_next; rewrite ?(frac_next j); fold s c s' c'; apply vec3_ext; vecs; ring.
  destruct S as [S|S].
  - left. subst s' c' s c. rewrite S, Rplus_0_r. apply vec3_ext; vecs; ring.
  - right. intros i' j' _ _. specialize (NY i' j'). value (1 / INR K * (rx * rz) * sin step * ((if up then 1 else -1) * vy (N (fd i' j')))).
    rewrite <- (turn_det (at_angle start step i) step). fold s c s' c'. vecs. ring.
Qed.
End Disc.

Lemma ring_trap (d : pipe) ri ro y step side (up : bool) K i j : pp_inner d = V2 ri ri -> pp_outer d = V2 ro ro -> 0 < ri < ro -> (0 < K)%nat -> (j < K)%nat -> 0 < sin step ->
  0 < (if up then 1 else -1) * side -> cell_trap normal (fun i j => ring_vertex d y side up K (at_angle 0 step i) j) (if up then O1 else O0) i j.
Proof.
  intros EI EO B PK Hj S NY. pose proof (inv_pos K PK) as IK.
  assert (F : 0 <= frac j K <= 1) by (apply frac_bounds; lia). assert (F' : 0 <= frac (j + 1) K <= 1) by (apply frac_bounds; lia).
  assert (P : forall i j, position (ring_vertex d y side up K (at_angle 0 step i) j) = rq (V2 ri ri) (V2 ro ro) step y K i j).
  { intros. unfold ring_vertex. rewrite EI, EO. apply vec3_ext; cbn -[frac]; ring. }
  set (s := sin (at_angle 0 step i)). set (c := cos (at_angle 0 step i)). set (s' := sin (at_angle 0 step i + step)). set (c' := cos (at_angle 0 step i + step)).
  apply (trap_all normal up _ i j (V3 (s' - s) 0 (c' - c)) (V3 (1 / INR K * (ro - ri) * s) 0 (1 / INR K * (ro - ri) * c))
    (ri + frac j K * (ro - ri)) (ri + frac (j + 1) K * (ro - ri)) false); [nra|nra| | | |].
  1-3: cbn zeta beta iota; rewrite !P; unfold rq; rewrite ?angle_next; rewrite ?(frac_next j); fold s c s' c'; apply vec3_ext; cbn [x2 y2]; vecs; ring.
  right. intros i' j' _ _. value (1 / INR K * (ro - ri) * sin step * ((if up then 1 else -1) * side)).
  rewrite <- (turn_det (at_angle 0 step i) step). fold s c s' c'. unfold ring_vertex. cbn [normal]. vecs. ring.
Qed.

Section Cone.
Variables (d : cone) (H V i j : nat).
Let half := co_height d * (1 / 2).
Let rx := x2 (co_radius d).
Let rz := y2 (co_radius d).
Variable step : R.
Let fc (i j : nat) := if (j =? 0)%nat then cone_tip half H i else cone_vertex d half H V (at_angle 0 step i) i j.
Lemma cone_position u v : position (fc u v) = V3 (frac v V * (sin (at_angle 0 step u) * rx)) (half * (1 - 2 * frac v V)) (frac v V * (cos (at_angle 0 step u) * rz)).
Proof.
  unfold fc. destruct v as [|v']; cbn [Nat.eqb]; [rewrite frac0; apply vec3_ext; cbn; ring|]. unfold cone_vertex. cbn [position]. unfold lerp3. fold rx rz. apply vec3_ext; vecs; ring.
Qed.
Lemma cone_normal_at u v : normal (fc u v) = V3 (sqrt (frac v V) * sin (at_angle 0 step u)) (1 - sqrt (frac v V)) (sqrt (frac v V) * cos (at_angle 0 step u)).
Proof.
  unfold fc. destruct v as [|v']; cbn [Nat.eqb].
  - rewrite frac0, sqrt_0. cbn [cone_tip normal]. apply vec3_ext; vecs; ring.
  - unfold cone_vertex. cbn [normal]. rewrite unit_xz. unfold lerp3. apply vec3_ext; vecs; ring.
Qed.
Lemma cone_trap N : 0 < half -> 0 < rx -> 0 < rz -> (0 < V)%nat -> (j < V)%nat -> 0 < sin step ->
  (forall i' j', i' = i \/ i' = (i + 1)%nat -> (j' <= V)%nat ->
    let s := sin (at_angle 0 step i) in let c := cos (at_angle 0 step i) in let s' := sin (at_angle 0 step i + step) in let c' := cos (at_angle 0 step i + step) in
    0 < 2 * half * (vz (N (fc i' j')) * (rx * (s' - s)) - vx (N (fc i' j')) * (rz * (c' - c))) + vy (N (fc i' j')) * (rx * rz * sin step)) ->
  cell_trap N fc O1 i j.
Proof.
  intros Ph X Z PV Hj S NY. pose proof (inv_pos V PV) as IV.
  assert (F : 0 <= frac j V <= 1) by (apply frac_bounds; lia). assert (F' : 0 <= frac (j + 1) V <= 1) by (apply frac_bounds; lia).
  set (s := sin (at_angle 0 step i)) in *. set (c := cos (at_angle 0 step i)) in *. set (s' := sin (at_angle 0 step i + step)) in *. set (c' := cos (at_angle 0 step i + step)) in *.
  apply (trap_all N true fc i j (V3 (rx * (s' - s)) 0 (rz * (c' - c))) (V3 (1 / INR V * (s * rx)) (- 2 * half * (1 / INR V)) (1 / INR V * (c * rz))) (frac j V) (frac (j + 1) V) false); [lra|lra| | | |].
  1-3: cbn zeta beta iota; rewrite !cone_position; rewrite ?angle_next; rewrite ?(frac_next j); fold s c s' c'; apply vec3_ext; vecs; ring.
  right. intros i' j' Hi' Hj'. specialize (NY i' j' Hi' ltac:(lia)). cbn zeta in NY.
  match type of NY with 0 < ?x => value (1 / INR V * x) end. rewrite <- (turn_det (at_angle 0 step i) step). fold s c s' c'. vecs. ring.
Qed.
Lemma cone_trap_normals r : co_radius d = V2 r r -> 0 < r -> 0 < half -> (0 < V)%nat -> (j < V)%nat -> 0 < sin step -> cell_trap normal fc O1 i j.
Proof.
  intros ER R0 Ph PV Hj S. apply cone_trap; try assumption; try (unfold rx, rz; rewrite ER; assumption). intros i' j' Hi' Hj'. cbn zeta. rewrite cone_normal_at. cbn [vx vy vz].
  assert (RX : rx = r) by (unfold rx; rewrite ER; reflexivity). assert (RZ : rz = r) by (unfold rz; rewrite ER; reflexivity). rewrite RX, RZ.
  assert (B : 0 <= frac j' V <= 1) by now apply frac_bounds. set (t := frac j' V) in *.
  assert (Q : 0 <= sqrt t <= 1) by (split; [apply sqrt_pos|]; rewrite <- sqrt_1; apply sqrt_le_1; lra). set (q := sqrt t) in *.
  match goal with |- 0 < ?y => replace y with (sin step * r * (q * (2 * half) + (1 - q) * r)) end.
  - apply Rmult_lt_0_compat; [products|]. nra.
  - rewrite <- (turn_det (at_angle 0 step i) step). destruct Hi' as [-> | ->]; rewrite ?angle_next; ring.
Qed.
Lemma cone_trap_positions : 0 < half -> 0 < rx -> 0 < rz -> (0 < V)%nat -> (j < V)%nat -> 0 < sin step -> cell_trap position fc O1 i j.
Proof.
  intros Ph X Z PV Hj S. apply cone_trap; try assumption. intros i' j' Hi' Hj'. cbn zeta. rewrite cone_position. cbn [vx vy vz].
  value (sin step * half * (rx * rz)). rewrite <- (turn_det (at_angle 0 step i) step). destruct Hi' as [-> | ->]; rewrite ?angle_next; ring.
Qed.
End Cone.

(** Walls of a pie *)
Lemma wall_trap r half side tc0 tc1 M V i j (rev : bool) : 0 < r -> 0 < half -> (0 < M)%nat -> (0 < V)%nat ->
  cell_trap normal (fun i j => wall_vertex r r half side (side + (if rev then pi_0_5 else PI + pi_0_5)) tc0 tc1 M V i j) (if rev then O0 else O1) i j.
Proof.
  intros R0 Ph PM PV. pose proof (inv_pos M PM) as IM. pose proof (inv_pos V PV) as IV.
  set (f := fun i j => wall_vertex r r half side (side + (if rev then pi_0_5 else PI + pi_0_5)) tc0 tc1 M V i j).
  assert (G : cell_trap normal f (if negb rev then O1 else O0) i j).
  { apply (trap_all normal (negb rev) f i j (vscale (1 / INR M) (V3 (sin side * r) 0 (cos side * r))) (V3 0 (- 2 * half * (1 / INR V)) 0) 1 1 false); [lra|lra| | | |].
    1-3: cbn zeta beta iota; unfold f, wall_vertex, lerp; cbn [position]; rewrite ?frac_next; apply vec3_ext; vecs; ring.
    right. intros i' j' _ _. unfold f, wall_vertex. cbn [normal]. value (2 * half * (1 / INR V) * (r * (1 / INR M))).
    assert (S : sin (PI * (1 / 2)) = 1) by (replace (PI * (1 / 2)) with (PI / 2) by field; apply sin_PI2).
    assert (C : cos (PI * (1 / 2)) = 0) by (replace (PI * (1 / 2)) with (PI / 2) by field; apply cos_PI2).
    pose proof (sc2 side) as Q. unfold pi_0_5. destruct rev; cbn [negb]; repeat rewrite ?sin_plus, ?cos_plus, ?S, ?C, ?sin_PI, ?cos_PI; vecs.
    - transitivity (2 * half * (1 / INR V) * (r * (1 / INR M)) * (sin side * sin side + cos side * cos side)); [|ring].
      replace (sin side * sin side + cos side * cos side) with 1 by (rewrite <- Q; ring). ring.
    - transitivity (2 * half * (1 / INR V) * (r * (1 / INR M)) * (sin side * sin side + cos side * cos side)); [|ring].
      replace (sin side * sin side + cos side * cos side) with 1 by (rewrite <- Q; ring). ring. }
  destruct rev; exact G.
Qed.

(** Faces of a cuboid: X, Y, Z are the axes of the face *)
Lemma face_trap N rot X Y Z sh sv z H V i j : (forall p, rotate rot p = vadd (vadd (vscale (vx p) X) (vscale (vy p) Y)) (vscale (vz p) Z)) -> cross X Y = Z ->
  0 < sh -> 0 < sv -> (0 < H)%nat -> (0 < V)%nat -> (forall i' j', dot Z (N (face_vertex rot sh sv z H V i' j')) < 0) ->
  cell_trap N (fun i j => face_vertex rot sh sv z H V i j) O0 i j.
Proof.
  intros E XY A B PH PV NZ. pose proof (inv_pos H PH) as IH. pose proof (inv_pos V PV) as IV.
  apply (trap_all N false _ i j (vscale (sv * (1 / INR V)) Y) (vscale (sh * (1 / INR H)) X) 1 1 false); [lra|lra| | | |].
  1-3: cbn zeta beta iota; unfold face_vertex; cbn [position]; rewrite !E; rewrite ?frac_next; apply vec3_ext; vecs; ring.
  right. intros i' j' _ _. specialize (NZ i' j'). value (sv * (1 / INR V) * (sh * (1 / INR H)) * - dot Z (N (face_vertex rot sh sv z H V i' j'))).
  set (n := N _). rewrite <- XY. vecs. ring.
Qed.
Lemma face_dots rot X Y Z sh sv z H V i j : (forall p, rotate rot p = vadd (vadd (vscale (vx p) X) (vscale (vy p) Y)) (vscale (vz p) Z)) ->
  dot X Z = 0 -> dot Y Z = 0 -> dot Z Z = 1 ->
  dot Z (normal (face_vertex rot sh sv z H V i j)) = -1 /\ dot Z (position (face_vertex rot sh sv z H V i j)) = z.
Proof.
  intros E XZ YZ ZZ. unfold face_vertex. cbn [normal position]. rewrite !E. cbn [vx vy vz].
  assert (D : forall a b c, dot Z (vadd (vadd (vscale a X) (vscale b Y)) (vscale c Z)) = a * dot X Z + b * dot Y Z + c * dot Z Z) by (intros; vecs; ring).
  rewrite !D, XZ, YZ, ZZ. split; ring.
Qed.
Definition turned (rot : quat) := rot = qone \/ exists a, rot = euler_x a \/ rot = euler_y a.
Lemma turned_axes rot : turned rot -> exists X Y Z, (forall p, rotate rot p = vadd (vadd (vscale (vx p) X) (vscale (vy p) Y)) (vscale (vz p) Z)) /\ cross X Y = Z /\
  dot X Z = 0 /\ dot Y Z = 0 /\ dot Z Z = 1.
Proof.
  assert (Q : forall a, sin a * sin a + cos a * cos a = 1) by (intros a; rewrite <- (sc2 a); ring).
  intros [->|(a & [->| ->])].
  - exists (V3 1 0 0), (V3 0 1 0), (V3 0 0 1). repeat split; try (intros p; rewrite rot0); try (apply vec3_ext); vecs; ring.
  - exists (V3 1 0 0), (V3 0 (cos a) (sin a)), (V3 0 (- sin a) (cos a)). repeat split; try (intros p; rewrite rot_x); try (apply vec3_ext); vecs; try ring.
    rewrite <- (Q a). ring.
  - exists (V3 (cos a) 0 (- sin a)), (V3 0 1 0), (V3 (sin a) 0 (cos a)). repeat split; try (intros p; rewrite rot_y); try (apply vec3_ext); vecs; try ring.
    rewrite <- (Q a). ring.
Qed.
Lemma face_normals rot sh sv z H V i j : turned rot -> 0 < sh -> 0 < sv -> (0 < H)%nat -> (0 < V)%nat ->
  cell_trap normal (fun i j => face_vertex rot sh sv z H V i j) O0 i j.
Proof.
  intros T A B PH PV. destruct (turned_axes _ T) as (X & Y & Z & E & XY & XZ & YZ & ZZ). apply (face_trap _ _ X Y Z); try assumption.
  intros i' j'. destruct (face_dots rot X Y Z sh sv z H V i' j' E XZ YZ ZZ) as [D _]. rewrite D. lra.
Qed.
Lemma face_positions rot sh sv z H V i j : turned rot -> 0 < sh -> 0 < sv -> z < 0 -> (0 < H)%nat -> (0 < V)%nat ->
  cell_trap position (fun i j => face_vertex rot sh sv z H V i j) O0 i j.
Proof.
  intros T A B C PH PV. destruct (turned_axes _ T) as (X & Y & Z & E & XY & XZ & YZ & ZZ). apply (face_trap _ _ X Y Z); try assumption.
  intros i' j'. destruct (face_dots rot X Y Z sh sv z H V i' j' E XZ YZ ZZ) as [_ D]. now rewrite D.
Qed.

(** Ellipsoids and caps: row i is at polar angle [at_angle 0 ts i], column j at azimuth [at_angle p0 (sg * ps) j] *)
Section Sphere.
Variables (rx ry rz half sg ts p0 ps : R) (f : nat -> nat -> vertex) (i j : nat).
Let th := at_angle 0 ts.
Let ph := at_angle p0 (sg * ps).
Hypothesis SG : sg * sg = 1.
Hypothesis POS : forall i j, position (f i j) = V3 (sin (th i) * cos (ph j) * rx) (sg * (cos (th i) * ry + half)) (sin (th i) * sin (ph j) * rz).
Lemma sphere_trap N ax ay az ah k : 0 <= sin (th i) -> 0 <= sin (th (i + 1)) -> 0 < sin ts -> 0 < sin ps -> 0 < rx * rz -> 0 < k ->
  (forall i j, N (f i j) = V3 (sin (th i) * cos (ph j) * ax) (sg * (cos (th i) * ay + ah)) (sin (th i) * sin (ph j) * az)) ->
  rz * ry * ax = k -> rx * rz * ay = k -> rx * ry * az = k -> 0 <= ah * (sin (th (i + 1)) - sin (th i)) ->
  cell_trap N f O2 i j.
Proof.
  intros S0 S1 ST SP RR K0 NF KX KY KZ AH.
  assert (SSG : sin (sg * ps) = sg * sin ps).
  { destruct (Req_dec sg 1) as [->|D]; [rewrite !Rmult_1_l; reflexivity|]. assert (sg = -1) as -> by nra.
    replace (-1 * ps) with (- ps) by ring. rewrite sin_neg. ring. }
  pose proof (turn_det (ph j) (sg * ps)) as TP. pose proof (turn_det (th i) ts) as TT. rewrite SSG in TP.
  assert (NP : ph (j + 1) = ph j + sg * ps) by apply angle_next. assert (NT : th (i + 1) = th i + ts) by apply angle_next.
  set (s0 := sin (th i)) in *. set (c0 := cos (th i)) in *. set (sp := sin (ph j)) in *. set (cp := cos (ph j)) in *.
  rewrite <- NP in TP. rewrite <- NT in TT.
  set (s0' := sin (th (i + 1))) in *. set (c0' := cos (th (i + 1))) in *. set (sp' := sin (ph (j + 1))) in *. set (cp' := cos (ph (j + 1))) in *.
  apply (trap_all N false f i j (V3 (rx * (cp' - cp)) 0 (rz * (sp' - sp))) (V3 ((s0' - s0) * cp * rx) (sg * ry * (c0' - c0)) ((s0' - s0) * sp * rz)) s0 s0' true); [assumption|assumption| | | |].
  1-3: cbn zeta beta iota; rewrite !POS; fold s0 c0 sp cp s0' c0' sp' cp'; apply vec3_ext; vecs; ring.
  right. intros i' j' Hi Hj. rewrite NF.
  assert (V : -1 * dot (cross (V3 ((s0' - s0) * cp * rx) (sg * ry * (c0' - c0)) ((s0' - s0) * sp * rz)) (V3 (rx * (cp' - cp)) 0 (rz * (sp' - sp))))
    (V3 (sin (th i') * cos (ph j') * ax) (sg * (cos (th i') * ay + ah)) (sin (th i') * sin (ph j') * az))
    = (sg * sg) * (sin ps * sin ts * k + sin ps * (rx * rz) * (ah * (s0' - s0)))).
  { transitivity (sg * (sg * sin ps) * sin ts * k + sg * (sg * sin ps) * (rx * rz) * (ah * (s0' - s0))); [|ring]. rewrite <- TP, <- TT.
    pose (g := fun s c u v : R => sg * (v * sp' - v * sp - (u * cp' - u * cp)) * 0 + (- (rz * ry * ax) * sg * (c0' - c0) * (sp' - sp) * s * v + sg * (s0' - s0) * (sp' * cp - cp' * sp) * (c * (rx * rz * ay) + rx * rz * ah) + (rx * ry * az) * sg * (c0' - c0) * (cp' - cp) * s * u)).
    transitivity (g (sin (th i')) (cos (th i')) (sin (ph j')) (cos (ph j'))); [unfold g; vecs; ring|]. unfold g. rewrite KX, KY, KZ.
    destruct Hi as [-> | ->], Hj as [-> | ->]; fold s0 c0 sp cp s0' c0' sp' cp'; ring. }
  rewrite V, SG. assert (0 < sin ps * sin ts * k) by products. assert (0 <= sin ps * (rx * rz) * (ah * (s0' - s0))) by (apply Rmult_le_pos; [apply Rlt_le; products|assumption]). lra.
Qed.
End Sphere.

Lemma angle_in n i a : (i <= n)%nat -> (0 < n)%nat -> 0 <= a <= PI -> 0 <= at_angle 0 (1 / INR n * a) i <= PI.
Proof.
  intros Hi Hn A. assert (B : 0 <= frac i n <= 1) by now apply frac_bounds. unfold frac in B. unfold at_angle.
  replace (0 + INR i * (1 / INR n * a)) with (INR i * (1 / INR n) * a) by ring. split; [apply Rmult_le_pos; lra|]. nra.
Qed.
Lemma sin_part n a : (2 <= n)%nat -> 0 < a <= PI -> 0 < sin (1 / INR n * a).
Proof.
  intros Hn A. pose proof (inv_pos n ltac:(lia)) as I. apply le_INR in Hn. cbn [INR] in Hn.
  assert (1 / INR n <= 1 / 2). { apply (Rmult_le_reg_l (INR n)); [lra|]. unfold Rdiv. rewrite !Rmult_1_l, Rinv_r by lra. lra. }
  apply sin_gt_0; [products; lra|]. assert (1 / INR n * a <= 1 / 2 * a) by (apply Rmult_le_compat_r; lra). lra.
Qed.
Lemma sin_part2 n a : (3 <= n)%nat -> 0 < a <= 2 * PI -> 0 < sin (1 / INR n * a).
Proof.
  intros Hn A. pose proof (inv_pos n ltac:(lia)) as I. apply le_INR in Hn. cbn [INR] in Hn.
  assert (1 / INR n <= 1 / 3). { apply (Rmult_le_reg_l (INR n)); [lra|]. unfold Rdiv. rewrite !Rmult_1_l, Rinv_r by lra. lra. }
  apply sin_gt_0; [products; lra|]. assert (1 / INR n * a <= 1 / 3 * a) by (apply Rmult_le_compat_r; lra). pose proof PI_RGT_0. lra.
Qed.
Lemma sin_full n : (3 <= n)%nat -> 0 < sin (1 / INR n * pi_2).
Proof. intros H. apply sin_part2; [assumption|]. unfold pi_2. pose proof PI_RGT_0. lra. Qed.

Lemma spherical_unit t p : normalize (spherical t p) = spherical t p.
Proof.
  apply normalize_id. unfold spherical. vecs.
  replace (sin t * cos p * (sin t * cos p) + cos t * cos t + sin t * sin p * (sin t * sin p)) with (Rsqr (sin t) * (Rsqr (sin p) + Rsqr (cos p)) + Rsqr (cos t)) by (unfold Rsqr; ring).
  rewrite sin2_cos2, Rmult_1_r. apply sin2_cos2.
Qed.

Lemma ellipsoid_trap (d : ellipsoid) U V i j N ax ay az k : (3 <= U)%nat -> (2 <= V)%nat -> (i < V)%nat -> positive3 (el_radius d) -> 0 < k ->
  (forall i j, N (ellipsoid_vertex d U V i j) = vmul (spherical (frac i V * PI) (frac j U * pi_2)) (V3 ax ay az)) ->
  vz (el_radius d) * vy (el_radius d) * ax = k -> vx (el_radius d) * vz (el_radius d) * ay = k -> vx (el_radius d) * vy (el_radius d) * az = k ->
  cell_trap N (fun i j => ellipsoid_vertex d U V i j) O2 i j.
Proof.
  intros HU HV Hi (X & Y & Z) K NF KX KY KZ. pose proof PI_RGT_0 as PP.
  assert (ET : forall i, frac i V * PI = at_angle 0 (1 / INR V * PI) i) by (intros; unfold frac, at_angle; ring).
  assert (EP : forall j, frac j U * pi_2 = at_angle 0 (1 * (1 / INR U * pi_2)) j) by (intros; unfold frac, at_angle; ring).
  apply (sphere_trap (vx (el_radius d)) (vy (el_radius d)) (vz (el_radius d)) 0 1 (1 / INR V * PI) 0 (1 / INR U * pi_2)) with (ax := ax) (ay := ay) (az := az) (ah := 0) (k := k); try assumption; try ring.
  - intros. unfold ellipsoid_vertex, spherical, vmul. cbn [position vx vy vz]. rewrite ET, EP. apply vec3_ext; cbn [vx vy vz]; ring.
  - apply sin_ge_0; apply (angle_in V i PI); lia || lra.
  - apply sin_ge_0; apply (angle_in V (i + 1) PI); lia || lra.
  - apply sin_part; [assumption|lra].
  - now apply sin_full.
  - products.
  - intros i' j'. rewrite NF. unfold spherical, vmul. cbn [vx vy vz]. rewrite ET, EP. apply vec3_ext; cbn [vx vy vz]; ring.
  - lra.
Qed.
Lemma cap_trap (d : capsule) half sg H C i j N ax ay az ah k : sg * sg = 1 -> (3 <= H)%nat -> (2 <= C)%nat -> (i < C)%nat -> positive3 (ca_radius d) -> 0 < k -> 0 <= ah ->
  (forall i j, let s := spherical (frac i C * pi_0_5) (frac j H * pi_2 * sg + pi_0_5) in N (cap_vertex d half sg H C i j) = V3 (vx s * ax) (vy s * sg * ay + sg * ah) (vz s * az)) ->
  vz (ca_radius d) * vy (ca_radius d) * ax = k -> vx (ca_radius d) * vz (ca_radius d) * ay = k -> vx (ca_radius d) * vy (ca_radius d) * az = k ->
  cell_trap N (fun i j => cap_vertex d half sg H C i j) O2 i j.
Proof.
  intros SG HU HV Hi (X & Y & Z) K A NF KX KY KZ. pose proof PI_RGT_0 as PP.
  assert (ET : forall i, frac i C * pi_0_5 = at_angle 0 (1 / INR C * pi_0_5) i) by (intros; unfold frac, at_angle; ring).
  assert (EP : forall j, frac j H * pi_2 * sg + pi_0_5 = at_angle pi_0_5 (sg * (1 / INR H * pi_2)) j) by (intros; unfold frac, at_angle; ring).
  assert (P5 : 0 <= pi_0_5 <= PI) by (unfold pi_0_5; lra).
  apply (sphere_trap (vx (ca_radius d)) (vy (ca_radius d)) (vz (ca_radius d)) half sg (1 / INR C * pi_0_5) pi_0_5 (1 / INR H * pi_2)) with (ax := ax) (ay := ay) (az := az) (ah := ah) (k := k); try assumption; try ring.
  - intros. unfold cap_vertex, spherical, vmul. cbn [position vx vy vz]. rewrite ET, EP. apply vec3_ext; cbn [vx vy vz]; ring.
  - apply sin_ge_0; apply (angle_in C i pi_0_5); lia || lra.
  - apply sin_ge_0; apply (angle_in C (i + 1) pi_0_5); lia || lra.
  - apply sin_part; [assumption|unfold pi_0_5 in *; lra].
  - now apply sin_full.
  - products.
  - intros i' j'. rewrite NF. unfold spherical. cbn [vx vy vz]. rewrite ET, EP. apply vec3_ext; cbn [vx vy vz]; ring.
  - apply Rmult_le_pos; [assumption|]. assert (B : 0 <= frac i C <= 1) by (apply frac_bounds; lia). assert (B' : 0 <= frac (i + 1) C <= 1) by (apply frac_bounds; lia).
    rewrite <- !ET. assert (frac i C <= frac (i + 1) C) by (rewrite frac_next; pose proof (inv_pos C ltac:(lia)); lra).
    assert (sin (frac i C * pi_0_5) <= sin (frac (i + 1) C * pi_0_5)); [|lra]. unfold pi_0_5. apply sin_incr_1; nra.
Qed.
Lemma normalize_multiple k u : 0 < k -> dot u u = 1 -> normalize (vscale k u) = u.
Proof.
  intros K U. assert (D : dot (vscale k u) (vscale k u) = k * k) by (transitivity (k * k * dot u u); [vecs; ring|rewrite U; ring]).
  unfold normalize. rewrite D. destruct (Reqb (k * k) 0) eqn:E0; [apply Reqb_iff in E0; nra|].
  destruct (Reqb (k * k) 1) eqn:E1.
  - apply Reqb_iff in E1. assert (k = 1) as -> by nra. apply vec3_ext; vecs; ring.
  - unfold len. rewrite D, sqrt_square by lra. apply vec3_ext; vecs; field; lra.
Qed.
Lemma torus_trap (d : torus) r R U V i j : (3 <= U)%nat -> (3 <= V)%nat -> 0 < r <= R -> to_tube d = V3 r r r -> to_ring d = V2 R R ->
  cell_trap normal (fun i j => torus_vertex d U V i j) O3 i j.
Proof.
  intros HU HV B ET ER. set (f := fun i j => torus_vertex d U V i j). pose (th := at_angle 0 (1 / INR V * pi_2)). pose (ph := at_angle 0 (1 / INR U * pi_2)).
  assert (TE : forall i, frac i V * pi_2 = th i) by (intros; unfold frac, th, at_angle; ring). assert (PE : forall j, frac j U * pi_2 = ph j) by (intros; unfold frac, ph, at_angle; ring).
  assert (P : forall i j, position (f i j) = V3 (sin (ph j) * (R + r * sin (th i))) (r * cos (th i)) (cos (ph j) * (R + r * sin (th i)))).
  { intros. unfold f, torus_vertex. rewrite ET, ER. cbn [position x2 y2 vx vy vz]. rewrite TE, PE. apply vec3_ext; cbn [vx vy vz]; ring. }
  assert (N : forall i j, normal (f i j) = V3 (sin (ph j) * sin (th i)) (cos (th i)) (cos (ph j) * sin (th i))).
  { intros i' j'. unfold f, torus_vertex. rewrite ET, ER. cbn [normal x2 y2 vx vy vz]. rewrite TE, PE.
    replace (V3 _ _ _) with (vscale (/ r) (V3 (sin (ph j') * sin (th i')) (cos (th i')) (cos (ph j') * sin (th i')))) by (apply vec3_ext; vecs; unfold Rdiv; ring).
    apply normalize_multiple; [apply Rinv_0_lt_compat; lra|]. vecs.
    replace (_ + _ + _) with (Rsqr (sin (th i')) * (Rsqr (sin (ph j')) + Rsqr (cos (ph j'))) + Rsqr (cos (th i'))) by (unfold Rsqr; ring).
    rewrite sin2_cos2, Rmult_1_r. apply sin2_cos2. }
  pose proof (turn_det (ph j) (1 / INR U * pi_2)) as TP. pose proof (turn_det (th i) (1 / INR V * pi_2)) as TT.
  assert (NP : ph (j + 1)%nat = ph j + 1 / INR U * pi_2) by apply angle_next. assert (NT : th (i + 1)%nat = th i + 1 / INR V * pi_2) by apply angle_next.
  rewrite <- NP in TP. rewrite <- NT in TT.
  pose proof (SIN_bound (th i)) as B0. pose proof (SIN_bound (th (i + 1)%nat)) as B1. pose proof (sin_full U HU) as SU. pose proof (sin_full V HV) as SV.
  set (s0 := sin (th i)) in *. set (c0 := cos (th i)) in *. set (sp := sin (ph j)) in *. set (cp := cos (ph j)) in *.
  set (s0' := sin (th (i + 1)%nat)) in *. set (c0' := cos (th (i + 1)%nat)) in *. set (sp' := sin (ph (j + 1)%nat)) in *. set (cp' := cos (ph (j + 1)%nat)) in *.
  apply (trap_all normal true f i j (V3 (sp' - sp) 0 (cp' - cp)) (V3 (r * (s0' - s0) * sp) (r * (c0' - c0)) (r * (s0' - s0) * cp)) (R + r * s0) (R + r * s0') true); [nra|nra| | | |].
  1-3: cbn zeta beta iota; rewrite !P; fold s0 c0 sp cp s0' c0' sp' cp'; apply vec3_ext; vecs; ring.
  right. intros i' j' Hi Hj. rewrite N. value (r * (sin (1 / INR U * pi_2) * sin (1 / INR V * pi_2))). rewrite <- TP, <- TT.
  destruct Hi as [-> | ->], Hj as [-> | ->]; fold s0 c0 sp cp s0' c0' sp' cp'; vecs; ring.
Qed.

(** ** The surfaces *)
Definition patch_faces (N : vertex -> vec3) (p : mesh_patch) : Prop := Forall (faces N) (map (tmap (p_at p)) (p_tris p)).
Lemma surface_faces N d : Forall (patch_faces N) (patches d) -> Forall (faces N) (surface d).
Proof.
  unfold surface. induction 1 as [|p ps P _ IH]; cbn [flat_map]; [apply Forall_nil|]. apply Forall_app. now split.
Qed.
Lemma when_faces N b p : (b = true -> patch_faces N p) -> Forall (patch_faces N) (when b p).
Proof. intros H. destruct b; cbn [when]; [apply Forall_cons; [now apply H|]|]; apply Forall_nil. Qed.

Lemma disc_part N alt (up : bool) start step rx rz y side H K : 0 < rx -> 0 < rz -> step = 0 \/ 0 < sin step ->
  (forall v, vy (position v) = y -> normal v = V3 0 side 0 -> 0 < (if up then 1 else -1) * vy (N v)) -> (0 <? K)%nat = true ->
  patch_faces N (disc_patch alt up start step rx rz y side H K).
Proof.
  intros X Z S NY PK. apply Nat.ltb_lt in PK. unfold patch_faces, disc_patch. cbn [p_tris p_at].
  apply (disc_faces N (fun i j => if (j =? 0)%nat then disc_center y side else disc_vertex rx rz y side up K (at_angle start step i) j)); [assumption|reflexivity|].
  intros i j Hi Hj. apply disc_trap; try assumption. intros i' j'. apply NY; destruct (j' =? 0)%nat; cbn; try reflexivity. ring.
Qed.
Lemma mantle_part_n alt rev start step r half H V : 0 < r -> 0 < half -> (0 < V)%nat -> step = 0 \/ 0 < sin step ->
  patch_faces normal (mantle_patch alt rev start step r r half (if rev then -1 else 1) H V).
Proof. intros. apply (grid_faces normal (fun i j => mantle_vertex r r half (if rev then -1 else 1) H V (at_angle start step i) i j)). intros. now apply mantle_normals. Qed.
Lemma mantle_part_p alt step rx rz half H V : 0 < rx -> 0 < rz -> 0 < half -> (0 < V)%nat -> 0 < sin step ->
  patch_faces position (mantle_patch alt false 0 step rx rz half 1 H V).
Proof. intros. apply (grid_faces position (fun i j => mantle_vertex rx rz half 1 H V (at_angle 0 step i) i j)). intros. now apply mantle_positions. Qed.
Lemma face_part_n alt rot sh sv z H V : turned rot -> 0 < sh -> 0 < sv -> (0 < H)%nat -> (0 < V)%nat -> patch_faces normal (face_patch alt rot sh sv z H V).
Proof. intros. apply (grid_faces normal (fun i j => face_vertex rot sh sv (z / 2) H V i j)). intros. now apply face_normals. Qed.
Lemma face_part_p alt rot sh sv z H V : turned rot -> 0 < sh -> 0 < sv -> z < 0 -> (0 < H)%nat -> (0 < V)%nat -> patch_faces position (face_patch alt rot sh sv z H V).
Proof. intros. apply (grid_faces position (fun i j => face_vertex rot sh sv (z / 2) H V i j)). intros. apply face_positions; try assumption. lra. Qed.
Lemma turned_x a : turned (euler_x a). Proof. right. eauto. Qed.
Lemma turned_y a : turned (euler_y a). Proof. right. eauto. Qed.
Lemma turned_1 : turned qone. Proof. now left. Qed.
#[local] Hint Resolve turned_x turned_y turned_1 : core.

Lemma pie_step H cut : (3 <= H)%nat -> 0 <= cut <= 2 * PI -> 1 / INR H * (pi_2 - cut) = 0 \/ 0 < sin (1 / INR H * (pi_2 - cut)).
Proof.
  intros HH B. unfold pi_2. destruct (Req_dec cut (2 * PI)) as [->|D]; [left; ring|right]. apply sin_part2; [assumption|lra].
Qed.

Theorem winding_surface d : round d -> Forall (faces normal) (surface d).
Proof.
  intros W. apply surface_faces. pose proof PI_RGT_0. destruct d; cbn [round] in W; cbn [patches].
  - destruct W as (X & Y & Z). repeat (apply Forall_cons; [apply face_part_n; auto; lia|]). apply Forall_nil.
  - destruct W as (r & R0 & E). apply Forall_cons; [|apply Forall_nil].
    apply (grid_faces normal (fun i j => ellipsoid_vertex d (Nat.max 3 (el_u d)) (Nat.max 2 (el_v d)) i j)). intros i j Hi Hj.
    apply (ellipsoid_trap d _ _ i j normal 1 1 1 (r * r)); rewrite ?E; cbn [vx vy vz]; try ring; try lia; try (unfold positive3; cbn [vx vy vz]; auto); [products|].
    intros. unfold ellipsoid_vertex. cbn [normal]. rewrite spherical_unit. unfold vmul. apply vec3_ext; cbn [vx vy vz]; ring.
  - destruct W as (Hh & r & R0 & E). pose proof (sin_full (Nat.max 3 (co_u d)) ltac:(lia)). apply Forall_cons.
    + apply (cone_faces normal (fun i j => if (j =? 0)%nat then cone_tip (co_height d * (1 / 2)) (Nat.max 3 (co_u d)) i
        else cone_vertex d (co_height d * (1 / 2)) (Nat.max 3 (co_u d)) (Nat.max 1 (co_v d)) (at_angle 0 (1 / INR (Nat.max 3 (co_u d)) * pi_2) i) i j)); [lia|].
      intros i j Hi Hj. apply (cone_trap_normals d _ _ _ _ _ r); try assumption; try lia; lra.
    + apply when_faces. intros K. apply disc_part; rewrite ?E; cbn [x2 y2]; auto. intros v _ N. rewrite N. cbn [vy]. lra.
  - destruct W as (Hh & r & R0 & E). pose proof (sin_full (Nat.max 3 (cy_u d)) ltac:(lia)). rewrite !E. cbn [x2 y2]. apply Forall_cons; [|apply Forall_app; split; apply when_faces; intros K].
    + apply (mantle_part_n _ false); auto; [lra|lia].
    + apply disc_part; auto. intros v _ N. rewrite N. cbn [vy]. lra.
    + apply disc_part; auto. intros v _ N. rewrite N. cbn [vy]. lra.
  - destruct W as (Hh & r & R0 & E). rewrite !E. cbn [x2 y2].
    pose proof (pie_step (Nat.max 3 (pi_u d)) (clampR (pi_angle d) 0 pi_2) ltac:(lia)) as S. pose proof (clamp_bounds (pi_angle d)) as CB.
    replace (2 * PI) with pi_2 in CB by (unfold pi_2; ring). specialize (S ltac:(unfold pi_2 in *; lra)).
    apply Forall_cons; [|apply Forall_cons; [|apply Forall_cons; [|apply Forall_app; split; apply when_faces; intros K]]].
    + apply (mantle_part_n _ false); auto; [lra|lia].
    + apply (grid_faces normal (fun i j => wall_vertex r r (pi_height d * (1 / 2)) _ (_ + (PI + pi_0_5)) 1 (-1) _ _ i j)). intros.
      apply (wall_trap r _ _ _ _ _ _ i j false); try assumption; try lia; lra.
    + apply (grid_faces normal (fun i j => wall_vertex r r (pi_height d * (1 / 2)) _ (_ + pi_0_5) 0 1 _ _ i j)). intros.
      apply (wall_trap r _ _ _ _ _ _ i j true); try assumption; try lia; lra.
    + apply disc_part; auto. intros v _ N. rewrite N. cbn [vy]. lra.
    + apply disc_part; auto. intros v _ N. rewrite N. cbn [vy]. lra.
  - destruct W as (Hh & r & R & B & EI & EO). pose proof (sin_full (Nat.max 3 (pp_u d)) ltac:(lia)). rewrite EI, EO. cbn [x2 y2].
    apply Forall_cons; [|apply Forall_cons; [|apply Forall_app; split; apply when_faces; intros K; apply Nat.ltb_lt in K]].
    + apply (mantle_part_n _ false); auto; [lra|lra|lia].
    + apply (mantle_part_n _ true); auto; [lra|lra|lia].
    + apply (grid_faces normal (fun i j => ring_vertex d _ (-1) false _ (at_angle 0 _ i) j)). intros i j Hi Hj.
      apply (ring_trap d r R _ _ (-1) false); auto; lra.
    + apply (grid_faces normal (fun i j => ring_vertex d _ 1 true _ (at_angle 0 _ i) j)). intros i j Hi Hj.
      apply (ring_trap d r R _ _ 1 true); auto; lra.
  - destruct W as (Hh & r & R0 & E). pose proof (sin_full (Nat.max 3 (ca_u d)) ltac:(lia)). rewrite E. cbn [vx vy vz].
    assert (CAP : forall sg, sg = 1 \/ sg = -1 -> Forall (faces normal) (map (tmap (fun l => cap_vertex d (ca_height d * (1 / 2)) sg (Nat.max 3 (ca_u d)) (Nat.max 2 (ca_cap d)) (fst l) (snd l)))
        (grid O2 (diagonal (ca_alt d)) (Nat.max 2 (ca_cap d)) (Nat.max 3 (ca_u d))))).
    { intros sg SG. apply (grid_faces normal (fun i j => cap_vertex d _ sg _ _ i j)). intros i j Hi Hj.
      apply (cap_trap d _ sg _ _ i j normal 1 1 1 0 (r * r)); rewrite ?E; cbn [vx vy vz]; try ring; try lia; try lra; try (unfold positive3; cbn [vx vy vz]; auto); [destruct SG as [->| ->]; ring|products|].
      intros i' j'. cbn zeta. unfold cap_vertex. cbn [normal]. rewrite normalize_id.
      - unfold spherical. apply vec3_ext; cbn [vx vy vz]; ring.
      - set (t := frac i' _ * _). set (p := _ + pi_0_5). pose proof (sin2_cos2 t) as Q1. pose proof (sin2_cos2 p) as Q2. unfold spherical. vecs.
        replace (_ + _ + _) with (Rsqr (sin t) * (Rsqr (sin p) + Rsqr (cos p)) + Rsqr (cos t)) by (unfold Rsqr; destruct SG as [->| ->]; ring). rewrite Q2, Rmult_1_r. exact Q1. }
    apply Forall_cons; [|apply Forall_cons; [|apply Forall_cons; [|apply Forall_nil]]].
    + apply (mantle_part_n _ false); auto; [lra|lia].
    + apply CAP. now left.
    + apply CAP. now right.
  - destruct W as (r & R & B & ET & ER). apply Forall_cons; [|apply Forall_nil].
    apply (grid_faces normal (fun i j => torus_vertex d _ _ i j)). intros i j Hi Hj. apply (torus_trap d r R); auto; lia.
  - destruct W.
  - destruct W.
  - destruct W.
  - destruct W.
Qed.

Theorem outward_surface d : convex_solid d -> Forall (faces position) (surface d).
Proof.
  intros W. apply surface_faces. pose proof PI_RGT_0. destruct d; cbn [convex_solid] in W; cbn [patches]; try (now destruct W).
  - destruct W as (X & Y & Z). repeat (apply Forall_cons; [apply face_part_p; auto; (lia || lra)|]). apply Forall_nil.
  - destruct W as (X & Y & Z). apply Forall_cons; [|apply Forall_nil].
    apply (grid_faces position (fun i j => ellipsoid_vertex d (Nat.max 3 (el_u d)) (Nat.max 2 (el_v d)) i j)). intros i j Hi Hj.
    apply (ellipsoid_trap d _ _ i j position (vx (el_radius d)) (vy (el_radius d)) (vz (el_radius d)) (vx (el_radius d) * vy (el_radius d) * vz (el_radius d))); try ring; try lia; [split; auto|products|].
    intros. unfold ellipsoid_vertex. cbn [position]. unfold vmul. apply vec3_ext; cbn [vx vy vz]; ring.
  - destruct W as (Hh & X & Z). pose proof (sin_full (Nat.max 3 (co_u d)) ltac:(lia)). apply Forall_cons.
    + apply (cone_faces position (fun i j => if (j =? 0)%nat then cone_tip (co_height d * (1 / 2)) (Nat.max 3 (co_u d)) i
        else cone_vertex d (co_height d * (1 / 2)) (Nat.max 3 (co_u d)) (Nat.max 1 (co_v d)) (at_angle 0 (1 / INR (Nat.max 3 (co_u d)) * pi_2) i) i j)); [lia|].
      intros i j Hi Hj. apply cone_trap_positions; try assumption; try lia; lra.
    + apply when_faces. intros K. apply disc_part; auto. intros v Y _. rewrite Y. lra.
  - destruct W as (Hh & X & Z). pose proof (sin_full (Nat.max 3 (cy_u d)) ltac:(lia)). apply Forall_cons; [|apply Forall_app; split; apply when_faces; intros K].
    + apply mantle_part_p; auto; [lra|lia].
    + apply disc_part; auto. intros v Y _. rewrite Y. lra.
    + apply disc_part; auto. intros v Y _. rewrite Y. lra.
  - destruct W as (Hh & X & Y & Z). pose proof (sin_full (Nat.max 3 (ca_u d)) ltac:(lia)).
    assert (CAP : forall sg, sg = 1 \/ sg = -1 -> Forall (faces position) (map (tmap (fun l => cap_vertex d (ca_height d * (1 / 2)) sg (Nat.max 3 (ca_u d)) (Nat.max 2 (ca_cap d)) (fst l) (snd l)))
        (grid O2 (diagonal (ca_alt d)) (Nat.max 2 (ca_cap d)) (Nat.max 3 (ca_u d))))).
    { intros sg SG. apply (grid_faces position (fun i j => cap_vertex d _ sg _ _ i j)). intros i j Hi Hj.
      apply (cap_trap d _ sg _ _ i j position (vx (ca_radius d)) (vy (ca_radius d)) (vz (ca_radius d)) (ca_height d * (1 / 2)) (vx (ca_radius d) * vy (ca_radius d) * vz (ca_radius d)));
        try ring; try lia; try lra; [destruct SG as [->| ->]; ring|split; auto|products|].
      intros i' j'. cbn zeta. unfold cap_vertex. cbn [position]. unfold vmul. apply vec3_ext; cbn [vx vy vz]; ring. }
    apply Forall_cons; [|apply Forall_cons; [|apply Forall_cons; [|apply Forall_nil]]].
    + apply mantle_part_p; auto; [lra|lia].
    + apply CAP. now left.
    + apply CAP. now right.
Qed.

Lemma new_corners d m m' N : valid d -> (Z.of_nat (vertex_count d) <= 2 ^ 32)%Z -> generate d m = Ok m' -> Forall (faces N) (surface d) ->
  forall t, In t (new_triangles m m') -> exists c, corners m' t = Some c /\ faces N c.
Proof.
  intros W L G F t Ht. pose proof (indices_hold d m m' W L G) as E. apply (in_map (corners m')) in Ht. rewrite E in Ht.
  apply in_map_iff in Ht. destruct Ht as (c & Ec & Hc). exists c. split; [now symmetry|]. rewrite Forall_forall in F. now apply F.
Qed.
Theorem winding_holds d m m' : valid d -> (Z.of_nat (vertex_count d) <= 2 ^ 32)%Z -> round d -> generate d m = Ok m' ->
  forall t, In t (new_triangles m m') -> exists c, corners m' t = Some c /\ faces normal c.
Proof. intros W L S G. apply (new_corners d); try assumption. now apply winding_surface. Qed.
Theorem outward_holds d m m' : valid d -> (Z.of_nat (vertex_count d) <= 2 ^ 32)%Z -> convex_solid d -> generate d m = Ok m' ->
  forall t, In t (new_triangles m m') -> exists c, corners m' t = Some c /\ faces position c.
Proof. intros W L S G. apply (new_corners d); try assumption. now apply outward_surface. Qed.

(** ** Elliptic cylinders: the normals are those of a circle *)
Definition flat_cylinder : descriptor := DCylinder (mkCylinder (V2 4 1) 1 3 1 1 1 false).
Lemma flat_ok : valid flat_cylinder /\ defined flat_cylinder /\ convex_solid flat_cylinder /\ (Z.of_nat (vertex_count flat_cylinder) < 2 ^ 32)%Z.
Proof.
  split; [intros n; cbn [flat_cylinder segment_counts cy_u cy_v cy_top cy_bottom In]; lia|]. split; [exact I|]. split; [|vm_compute; reflexivity].
  cbn. unfold positive2. cbn. lra.
Qed.
Lemma winding_refuted_holds : exists d m m' t c, valid d /\ convex_solid d /\ generate d m = Ok m' /\ In t (new_triangles m m') /\ corners m' t = Some c /\
  dot (front c) (normal (fst (fst c))) < 0.
Proof.
  destruct flat_ok as (W & D & C & S). destruct (succeeds_holds flat_cylinder (mkMesh [] []) W D S) as [m' G].
  pose proof (indices_hold flat_cylinder (mkMesh [] []) m' W ltac:(unfold MeshGenIdeal.fits; lia) G) as E.
  set (q := fun i j => mantle_vertex 4 1 (1 * (1 / 2)) 1 3 1 (at_angle 0 (1 / INR 3 * pi_2) i) i j).
  assert (ES : exists l, surface flat_cylinder = (q 1%nat 0%nat, q 0%nat 0%nat, q 0%nat 1%nat) :: l) by (eexists; reflexivity).
  destruct ES as [l ES]. rewrite ES in E. cbn [map] in E. destruct (new_triangles _ m') as [|t ts] eqn:ET; [discriminate|].
  exists flat_cylinder, (mkMesh [] []), m', t, (q 1%nat 0%nat, q 0%nat 0%nat, q 0%nat 1%nat). repeat split; try assumption; try apply C.
  - rewrite ET. now left.
  - cbn [map] in E. now injection E.
  - cbn [fst]. unfold q, mantle_vertex, front. cbn [position normal]. rewrite unit_xz. unfold lerp, frac.
    assert (A : at_angle 0 (1 / INR 3 * pi_2) 1 = 2 * (PI / 3)) by (unfold at_angle, pi_2; cbn [INR]; field). rewrite A, angle_0, sin_2PI3, cos_2PI3, sin_0, cos_0.
    assert (P3 : 0 < sqrt 3) by (apply sqrt_lt_R0; lra). vecs. cbn [INR]. lra.
Qed.
