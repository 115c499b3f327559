(** Cached matrices and turning. *)
From Coq Require Import ZArith Reals List Bool Lia Lra.
From Verif Require Import Model.Scalar Model.Vec Model.Plane Model.Transforms Spec.TransformSpec Proofs.VecLemmas.
Import ListNotations.
Local Open Scope R_scope.

Lemma vec2_ext a b : x2 a = x2 b -> y2 a = y2 b -> a = b.
Proof. destruct a, b; cbn; congruence. Qed.

Section Projection.
Variable M : Type.
Variable perspective orthogonal : R -> R -> R -> R -> Z -> M.
Definition pvalues_of (p : projection M) : pvalues := mkPV (pnear p) (pfar p) (pfov p) (paspect p) (pflags p) (portho p) (psize p).
Definition fresh (p : projection M) : Prop := pchanged p = false -> pmatrix p = projection_matrix M perspective orthogonal (pvalues_of p) (pflags p).
Lemma proj_run_expected : forall os p, fresh p -> proj_run M perspective orthogonal p os = proj_expected M perspective orthogonal (pvalues_of p) os.
Proof.
  induction os as [|o os IH]; intros p F; [reflexivity|]. destruct o; cbn [proj_run proj_expected].
  - rewrite IH; [reflexivity|intros H; discriminate].
  - rewrite IH; [reflexivity|intros H; discriminate].
  - rewrite IH; [reflexivity|intros H; discriminate].
  - rewrite IH; [reflexivity|intros H; discriminate].
  - unfold set_ortho. destruct (negb (Bool.eqb (portho p) o)) eqn:E.
    + rewrite IH; [reflexivity|intros H; discriminate].
    + rewrite IH by exact F. f_equal. apply negb_false_iff, eqb_prop in E. rewrite <- E. reflexivity.
  - unfold set_ortho_size. destruct (negb (Reqb (x2 (psize p)) (x2 s)) || negb (Reqb (y2 (psize p)) (y2 s))) eqn:E.
    + rewrite IH; [reflexivity|]. unfold fresh; cbn. intros H. destruct (portho p) eqn:O; [discriminate|]. specialize (F H).
      rewrite F. unfold projection_matrix, pvalues_of; cbn. rewrite O. reflexivity.
    + rewrite IH by exact F. f_equal. apply orb_false_iff in E. destruct E as [E1 E2]. apply negb_false_iff in E1, E2. apply Reqb_iff in E1, E2.
      unfold pvalues_of. f_equal. apply vec2_ext; assumption.
  - unfold set_flags. destruct (negb (pflags p =? f)%Z) eqn:E.
    + rewrite IH; [reflexivity|intros H; discriminate].
    + rewrite IH by exact F. f_equal. apply negb_false_iff, Z.eqb_eq in E. rewrite <- E. reflexivity.
  - unfold get_matrix. destruct (pchanged p) eqn:C.
    + f_equal. rewrite IH; [reflexivity|]. intros _. reflexivity.
    + rewrite IH by exact F. f_equal. apply F. exact C.
  - f_equal. apply IH. exact F.
Qed.
End Projection.

Definition fresh2 (t : transform2) : Prop := t2changed t = false -> matrix2_of (t2pos t) (t2rot t) (t2scale t) (t2matrix t).
Lemma t2_run_expected : forall os t, fresh2 t -> t2_expected (fun pos a pivot => t2pos (turn2 (mkT2 pos 0 (V2 1 1) (t2matrix t) true) a pivot)) (t2pos t) (t2rot t) (t2scale t) os (t2_run t os).
Proof.
  assert (K : forall os m m' pos a s ms, t2_expected (fun pos a pivot => t2pos (turn2 (mkT2 pos 0 (V2 1 1) m true) a pivot)) pos a s os ms ->
    t2_expected (fun pos a pivot => t2pos (turn2 (mkT2 pos 0 (V2 1 1) m' true) a pivot)) pos a s os ms) by (intros; assumption).
  induction os as [|o os IH]; intros t F; [reflexivity|]. destruct o; cbn [t2_run t2_expected].
  - apply (IH (set_position2 t p)). intros H; discriminate.
  - apply (IH (set_rotation2 t a)). intros H; discriminate.
  - apply (IH (set_scale2 t s)). intros H; discriminate.
  - apply (IH (turn2 t a pivot)). intros H; discriminate.
  - unfold get_matrix2. destruct (t2changed t) eqn:C.
    + set (m := set_rotation_and_scale _ _ _). assert (Q : matrix2_of (t2pos t) (t2rot t) (t2scale t) m).
      { intros v. apply vec2_ext; unfold m; cbn; ring. }
      split; [exact Q|]. apply (K os m). apply (IH (mkT2 (t2pos t) (t2rot t) (t2scale t) m false)). intros _. exact Q.
    + split; [apply F; exact C|]. apply IH. exact F.
Qed.

Definition fresh3 (t : transform3) : Prop := t3changed t = false -> matrix3_of (t3pos t) (t3rot t) (t3scale t) (t3matrix t).
Lemma turn_pos qmul t q p : t3pos (turn3 qmul t q p) = vadd p (rotate q (vsub (t3pos t) p)).
Proof. unfold turn3. cbn [t3pos]. set (r := rotate q _). apply vec3_ext; cbn; ring. Qed.
Lemma t3_run_expected qmul : forall os t, fresh3 t -> t3_expected qmul (t3pos t) (t3rot t) (t3scale t) os (t3_run qmul t os).
Proof.
  induction os as [|o os IH]; intros t F; [reflexivity|]. destruct o; cbn [t3_run t3_expected].
  - apply (IH (set_position3 t p)). intros H; discriminate.
  - apply (IH (set_rotation3 t q)). intros H; discriminate.
  - apply (IH (set_scale3 t s)). intros H; discriminate.
  - apply (IH (move_global t d)). intros H; discriminate.
  - apply (IH (move_local t d)). intros H; discriminate.
  - rewrite <- (turn_pos qmul). apply (IH (turn3 qmul t q pivot)). intros H; discriminate.
  - unfold get_matrix3. destruct (t3changed t) eqn:C.
    + set (m := scale_matrix _ _). assert (Q : matrix3_of (t3pos t) (t3rot t) (t3scale t) m).
      { intros v. unfold m. clear. unfold transform_vector, rotate_vector, dot, rotate, cross, vadd, vscale, qvec; apply vec3_ext; cbn; ring. }
      split; [exact Q|]. apply (IH (mkT3 (t3pos t) (t3rot t) (t3scale t) m false)). intros _. exact Q.
    + split; [apply F; exact C|]. apply IH. exact F.
Qed.

(** ** Quaternions *)
Definition hom (q : quat) (v : vec3) : vec3 :=
  let u := qvec q in vadd (vscale (qw q * qw q - dot u u) v) (vadd (vscale (2 * dot u v) u) (vscale (2 * qw q) (cross u v))).
Lemma rotate_hom q v : unit_quat q -> rotate q v = hom q v.
Proof.
  intros U. unfold unit_quat in U.
  assert (H : forall c, c = (qx q * qx q + qy q * qy q + qz q * qz q + qw q * qw q) * c) by (intros c; rewrite U; ring).
  apply vec3_ext; unfold rotate, hom, dot; cbn; [rewrite (H (vx v)) at 1|rewrite (H (vy v)) at 1|rewrite (H (vz v)) at 1]; ring.
Qed.
Lemma hom_hamilton a b v : hom (hamilton a b) v = hom a (hom b v).
Proof. apply vec3_ext; unfold hom, hamilton, dot; cbn; ring. Qed.
Lemma hamilton_unit a b : unit_quat a -> unit_quat b -> unit_quat (hamilton a b).
Proof.
  unfold unit_quat. intros A B. cbn.
  match goal with |- ?e = 1 => replace e with ((qx a * qx a + qy a * qy a + qz a * qz a + qw a * qw a) * (qx b * qx b + qy b * qy b + qz b * qz b + qw b * qw b)) by ring end.
  rewrite A, B. ring.
Qed.
Lemma rotate_hamilton a b v : unit_quat a -> unit_quat b -> rotate (hamilton a b) v = rotate a (rotate b v).
Proof. intros A B. rewrite !rotate_hom by (try apply hamilton_unit; assumption). apply hom_hamilton. Qed.
Lemma rotate_len q v : unit_quat q -> dot (rotate q v) (rotate q v) = dot v v.
Proof.
  intros U. unfold unit_quat in U. set (a := cross (qvec q) v).
  transitivity (dot v v + 4 * dot a a * (qx q * qx q + qy q * qy q + qz q * qz q + qw q * qw q - 1)); [unfold rotate, a, dot; cbn; ring|rewrite U; ring].
Qed.
Lemma rotate_sub q a b : rotate q (vsub a b) = vsub (rotate q a) (rotate q b).
Proof. apply vec3_ext; unfold rotate; cbn; ring. Qed.
Lemma rotate_add q a b : rotate q (vadd a b) = vadd (rotate q a) (rotate q b).
Proof. apply vec3_ext; unfold rotate; cbn; ring. Qed.
