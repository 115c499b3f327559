From Coq Require Import Reals List Bool Lra Psatz.
From Verif Require Import Model.Scalar Model.Vec Model.Plane Model.Coll Spec.PlaneSpec Spec.CollSpec Proofs.VecLemmas.
Import ListNotations.
Local Open Scope R_scope.

Definition inside (s : slab) (t : R) : Prop := slo s <= so s + t * sd s <= shi s.

Lemma slab_far eps s t : 0 < eps -> eps <= Rabs (sd s) -> slo s <= shi s ->
  let t1 := (slo s - so s) * (1 / sd s) in let t2 := (shi s - so s) * (1 / sd s) in
  inside s t <-> Rmin t1 t2 <= t <= Rmax t1 t2.
Proof.
  intros He Hd Hb t1 t2. assert (N : sd s <> 0) by (intros E; rewrite E, Rabs_R0 in Hd; lra).
  assert (E1 : t1 * sd s = slo s - so s) by (unfold t1; field; exact N).
  assert (E2 : t2 * sd s = shi s - so s) by (unfold t2; field; exact N).
  unfold inside. destruct (Rlt_dec 0 (sd s)) as [P|P].
  - assert (t1 <= t2) by (apply (Rmult_le_reg_r (sd s)); lra).
    rewrite Rmin_left, Rmax_right by assumption. split.
    + intros H1. split; apply (Rmult_le_reg_r (sd s)); lra.
    + intros (A & B). apply (Rmult_le_compat_r (sd s)) in A; [|lra]. apply (Rmult_le_compat_r (sd s)) in B; lra.
  - assert (Q : sd s < 0) by lra. assert (t2 <= t1) by (apply (Rmult_le_reg_r (- sd s)); lra).
    rewrite Rmin_right, Rmax_left by assumption. split.
    + intros H1. split; apply (Rmult_le_reg_r (- sd s)); lra.
    + intros (A & B). apply (Rmult_le_compat_r (- sd s)) in A; [|lra]. apply (Rmult_le_compat_r (- sd s)) in B; lra.
Qed.

Lemma swap_min_max t1 t2 : (if Rltb t2 t1 then (t2, t1) else (t1, t2)) = (Rmin t1 t2, Rmax t1 t2).
Proof.
  destruct (Rltb t2 t1) eqn:E; [apply Rltb_iff in E|apply Rltb_false in E].
  - rewrite Rmin_right, Rmax_left by lra. reflexivity.
  - rewrite Rmin_left, Rmax_right by lra. reflexivity.
Qed.

Lemma slab_loop_spec eps l : 0 < eps -> (forall s, In s l -> slo s <= shi s /\ clear_cut eps (sd s)) -> forall tmin tmax, tmin <= tmax ->
  match slab_loop eps l tmin tmax with
  | Some t => tmin <= t <= tmax /\ (forall s, In s l -> inside s t) /\
              (forall u, tmin <= u <= tmax -> (forall s, In s l -> inside s u) -> t <= u)
  | None => forall u, tmin <= u <= tmax -> ~ (forall s, In s l -> inside s u)
  end.
Proof.
  intros He. induction l as [|s l IH]; intros Hl tmin tmax Ht; cbn [slab_loop].
  - split; [lra|]. split; [intros s []|]. intros u Hu _. lra.
  - assert (Hs := Hl s (or_introl eq_refl)). destruct Hs as (Hb & Hc).
    assert (Hl' : forall s, In s l -> slo s <= shi s /\ clear_cut eps (sd s)) by (intros x Hx; apply Hl; right; exact Hx).
    destruct (Rltb (Rabs (sd s)) eps) eqn:E.
    + apply Rltb_iff in E. assert (Z : sd s = 0) by (destruct Hc as [Z|Z]; [exact Z|lra]).
      destruct (Rltb (so s) (slo s) || Rltb (shi s) (so s)) eqn:F.
      * intros u _ H. assert (K := H s (or_introl eq_refl)). unfold inside in K. rewrite Z, Rmult_0_r, Rplus_0_r in K.
        apply orb_true_iff in F. rewrite !Rltb_iff in F. lra.
      * apply orb_false_iff in F. rewrite !Rltb_false in F.
        assert (I : forall u, inside s u) by (intros u; unfold inside; rewrite Z, Rmult_0_r, Rplus_0_r; lra).
        specialize (IH Hl' tmin tmax Ht). destruct (slab_loop eps l tmin tmax) as [t|].
        -- destruct IH as (A & B & C). split; [exact A|]. split; [intros x [<-|Hx]; [apply I|apply B, Hx]|].
           intros u Hu H. apply C; [exact Hu|]. intros x Hx. apply H. right. exact Hx.
        -- intros u Hu H. apply (IH u Hu). intros x Hx. apply H. right. exact Hx.
    + apply Rltb_false in E. rewrite swap_min_max.
      assert (I := fun u => slab_far eps s u He E Hb). cbn zeta in I.
      set (m1 := Rmin _ _) in *. set (m2 := Rmax _ _) in *.
      destruct (Rltb (Rmin tmax m2) (Rmax tmin m1)) eqn:F.
      * apply Rltb_iff in F. intros u Hu H. assert (K := proj1 (I u) (H s (or_introl eq_refl))).
        assert (Rmax tmin m1 <= u) by (apply Rmax_lub; lra). assert (u <= Rmin tmax m2) by (apply Rmin_glb; lra). lra.
      * apply Rltb_false in F. specialize (IH Hl' _ _ F). assert (M1 := Rmax_l tmin m1). assert (M2 := Rmax_r tmin m1).
        assert (M3 := Rmin_l tmax m2). assert (M4 := Rmin_r tmax m2).
        destruct (slab_loop eps l _ _) as [t|].
        -- destruct IH as (A & B & C). split; [lra|]. split.
           ++ intros x [<-|Hx]; [apply I; lra|apply B, Hx].
           ++ intros u Hu H. assert (K := proj1 (I u) (H s (or_introl eq_refl))). apply C.
              ** split; [apply Rmax_lub; lra|apply Rmin_glb; lra].
              ** intros x Hx. apply H. right. exact Hx.
        -- intros u Hu H. assert (K := proj1 (I u) (H s (or_introl eq_refl))). apply (IH u).
           ++ split; [apply Rmax_lub; lra|apply Rmin_glb; lra].
           ++ intros x Hx. apply H. right. exact Hx.
Qed.

(** Small components are treated as zero. *)
Lemma flush_cut eps x : 0 < eps -> clear_cut eps (flush eps x).
Proof. intros He. unfold flush, clear_cut. destruct (Rltb (Rabs x) eps) eqn:E; [auto|]. apply Rltb_false in E. right. exact E. Qed.
Lemma flush_id eps x : 0 < eps -> clear_cut eps x -> flush eps x = x.
Proof. intros He H. unfold flush. destruct (Rltb (Rabs x) eps) eqn:E; [|reflexivity]. apply Rltb_iff in E. destruct H; lra. Qed.
Definition flush_slab eps s := mkSlab (so s) (flush eps (sd s)) (slo s) (shi s).
Lemma slab_loop_flush eps l : 0 < eps -> forall tmin tmax, slab_loop eps l tmin tmax = slab_loop eps (map (flush_slab eps) l) tmin tmax.
Proof.
  intros He. induction l as [|s l IH]; intros tmin tmax; cbn [slab_loop map flush_slab so sd slo shi]; [reflexivity|].
  unfold flush. destruct (Rltb (Rabs (sd s)) eps) eqn:E.
  - replace (Rltb (Rabs 0) eps) with true by (symmetry; apply Rltb_iff; rewrite Rabs_R0; exact He). rewrite IH. reflexivity.
  - rewrite E, !swap_min_max. rewrite IH. reflexivity.
Qed.
Lemma slabs_inside b r t : (forall s, In s (slabs b r) -> inside s t) <-> in_box b (ray_at r t).
Proof.
  unfold slabs, in_box, ray_at, inside, vadd, vscale. cbn [In vx vy vz]. split.
  - intros H. split; [|split]; [apply (H (mkSlab _ _ _ _)); left; reflexivity|apply (H (mkSlab _ _ _ _)); right; left; reflexivity|apply (H (mkSlab _ _ _ _)); right; right; left; reflexivity].
  - intros (A & B & C) s [<-|[<-|[<-|[]]]]; cbn; assumption.
Qed.

Lemma box_interp_flush eps big b r : 0 < eps -> box_interp eps big b r = box_interp eps big b (flush_ray eps r).
Proof. intros He. unfold box_interp. rewrite slab_loop_flush by exact He. reflexivity. Qed.
Lemma box_interp_spec eps big b r : 0 < eps -> 0 <= big -> nonempty_box b -> clear_direction eps (rdirection r) ->
  match box_interp eps big b r with
  | Some t => 0 <= t <= big /\ in_box b (ray_at r t) /\ (forall u, 0 <= u <= big -> in_box b (ray_at r u) -> t <= u)
  | None => forall u, 0 <= u <= big -> ~ in_box b (ray_at r u)
  end.
Proof.
  intros He Hbig (x & (Bx & By & Bz)) (Cx & Cy & Cz). unfold box_interp.
  assert (K := slab_loop_spec eps (slabs b r) He). assert (S := slabs_inside b r).
  specialize (K ltac:(intros s [<-|[<-|[<-|[]]]]; cbn; (split; [lra|assumption])) 0 big Hbig).
  destruct (slab_loop eps (slabs b r) 0 big) as [t|].
  - destruct K as (A & B & C). split; [exact A|]. split; [apply S, B|]. intros u Hu H. apply C; [exact Hu|]. apply S, H.
  - intros u Hu H. apply (K u Hu). apply S, H.
Qed.
Lemma flush_direction eps r : 0 < eps -> clear_direction eps (rdirection (flush_ray eps r)).
Proof. intros He. repeat split; apply flush_cut; exact He. Qed.
