(** * C91: rays against boxes in double precision *)
From Coq Require Import ZArith Reals List Bool Lia Lra Psatz.
From Flocq Require Import Core IEEE754.BinarySingleNaN.
From Verif Require Import Model.Scalar Model.BoxFloat Model.BoxRayFloat Spec.FloatSpec Spec.BoxRayFloatSpec Proofs.PlaneFloatLemmas Proofs.SplineFloat Proofs.BoxRayFloatLemmas.
Import ListNotations.
Local Open Scope R_scope.

(** A reported parameter is a finite number that is not negative.  There the ray is in the box, up to the wobble of the sides, and before
    it is not deep in the box.  Without a report the ray is never deep in the box. *)
Theorem C91_first_hit : forall eps l, is_finite eps = true -> bpow radix2 (-500) <= B2R eps -> Forall regular l ->
  match fbox_interp eps l with
  | Some t => is_finite t = true /\ 0 <= B2R t /\ Forall (roughly_in eps (B2R t)) l /\ forall v, 0 <= v < B2R t -> ~ Forall (deep_in eps v) l
  | None => forall v, 0 <= v -> ~ Forall (deep_in eps v) l
  end.
Proof.
  intros eps l Fe He R. pose proof (interp_spec eps l Fe He R) as K.
  assert (D : forall v, Forall (deep_in eps v) l -> Forall (fun s => passes eps s v) l).
  { intros v H. apply Forall_forall. intros s I. rewrite Forall_forall in H, R. now apply deep_passes; [exact He|apply R|apply H]. }
  destruct (fbox_interp eps l) as [t|].
  - destruct K as (F & P & A & M). split; [exact F|]. split; [exact P|]. split.
    + apply Forall_forall. intros s I. rewrite Forall_forall in A, R. now apply passes_rough; [exact He|apply R|apply A].
    + intros v V H. specialize (M v (proj1 V) (D v H)). lra.
  - intros v V H. exact (K v V (D v H)).
Qed.
Print Assumptions C91_first_hit.

(** A ray that starts in the box is reported always, with the parameter 0: here rounding has no effect. *)
Theorem C91_start_inside : forall eps l, is_finite eps = true -> bpow radix2 (-500) <= B2R eps -> Forall regular l ->
  Forall (fun s => B2R (flo s) <= B2R (fo s) <= B2R (fhi s)) l -> exists t, fbox_interp eps l = Some t /\ B2R t = 0.
Proof.
  intros eps l Fe He R I. pose proof (interp_spec eps l Fe He R) as K.
  assert (D : Forall (fun s => passes eps s 0) l) by (apply Forall_forall; intros s H; rewrite Forall_forall in I, R; now apply inside_passes; [exact He|apply R|apply I]).
  destruct (fbox_interp eps l) as [t|]; [|exfalso; exact (K 0 (Rle_refl 0) D)].
  destruct K as (_ & P & _ & M). specialize (M 0 (Rle_refl 0) D). exists t. split; [reflexivity|lra].
Qed.
Print Assumptions C91_start_inside.

(** The test without the point reports the same rays. *)
Theorem C91_test : forall eps l, is_finite eps = true -> bpow radix2 (-500) <= B2R eps -> Forall regular l -> (fbox_ray_test eps l = true <-> exists t, fbox_interp eps l = Some t).
Proof.
  intros eps l Fe He R. pose proof (interp_spec eps l Fe He R) as K. unfold fbox_ray_test. destruct (fbox_interp eps l) as [t|].
  - destruct K as (F & P & _). split; [eauto|]. intros _. rewrite (Bleb_correct _ _ b64_0 t eq_refl F). apply Rle_bool_true. exact P.
  - split; [discriminate|intros [t E]; discriminate].
Qed.
Print Assumptions C91_test.

Definition ignored (eps : b64) (s : fslab) : Prop := forall l tmin tmax, Bltb tmax tmin = false -> fslab_loop eps (s :: l) tmin tmax = fslab_loop eps l tmin tmax.
Lemma ignored_anywhere eps s : ignored eps s -> forall l1 l2, fbox_interp eps (l1 ++ s :: l2) = fbox_interp eps (l1 ++ l2).
Proof.
  intros H l1 l2. unfold fbox_interp. assert (L : Bltb b64_big b64_0 = false) by reflexivity. revert L. generalize b64_0 b64_big.
  induction l1 as [|a l1 IH]; intros tmin tmax L; cbn [app]; [now apply H|]. cbn [fslab_loop].
  destruct (Bltb (Babs (fd a)) eps); [destruct (_ || _); [reflexivity|now apply IH]|]. destruct (fnear_far a) as [t1 t2]. cbv zeta. destruct (Bltb (fmin2 tmax t2) (fmax2 tmin t1)) eqn:C; [reflexivity|now apply IH].
Qed.
Lemma nan_lt_l (x : b64) : Bltb B754_nan x = false. Proof. reflexivity. Qed.
Lemma nan_lt_r (x : b64) : Bltb x B754_nan = false. Proof. now destruct x as [[]|[]| |[]]. Qed.

(** A component in which the origin or the direction is not a number is ignored. *)
Theorem C91_nan_ignored : forall eps l1 s l2, is_nan (fo s) = true \/ is_nan (fd s) = true -> fbox_interp eps (l1 ++ s :: l2) = fbox_interp eps (l1 ++ l2).
Proof.
  intros eps l1 s l2 N. apply ignored_anywhere. clear l1 l2. intros l tmin tmax L. cbn [fslab_loop].
  assert (P : forall b, is_nan (fo s) = true \/ is_nan (fd s) = true -> fparam s b = B754_nan).
  { intros b [H|H]; unfold fparam.
    - destruct (fo s); try discriminate. assert (E : b64_sub b B754_nan = B754_nan) by (destruct b; reflexivity). rewrite E. reflexivity.
    - destruct (fd s); try discriminate. assert (E : b64_div (b64_of_Z 1) B754_nan = B754_nan) by (destruct (b64_of_Z 1); reflexivity). rewrite E. destruct (b64_sub b (fo s)); reflexivity. }
  destruct (Bltb (Babs (fd s)) eps) eqn:C.
  - destruct N as [N|N]; [|destruct (fd s); discriminate]. destruct (fo s); try discriminate. now rewrite nan_lt_l, nan_lt_r.
  - unfold fnear_far. rewrite !P by exact N. cbn [Bltb]. unfold fmax2, fmin2. rewrite !nan_lt_l, nan_lt_r. now rewrite L.
Qed.
Print Assumptions C91_nan_ignored.

Lemma inf_lt (x : b64) : Bltb x (B754_infinity true) = false. Proof. now destruct x as [[]|[]| |[]]. Qed.
Lemma lt_inf (x : b64) : Bltb (B754_infinity false) x = false. Proof. now destruct x as [[]|[]| |[]]. Qed.
(** Boxes may be unbounded: a component that reaches from minus infinity to infinity does not restrict the ray. *)
Theorem C91_unbounded : forall eps l1 s l2, is_finite eps = true -> bpow radix2 (-500) <= B2R eps -> moderate (fo s) -> moderate (fd s) ->
  flo s = B754_infinity true -> fhi s = B754_infinity false -> fbox_interp eps (l1 ++ s :: l2) = fbox_interp eps (l1 ++ l2).
Proof.
  intros eps l1 s l2 Fe He Mo Md EL EH.
  assert (K : (Bltb (Babs (fd s)) eps = true -> Bltb (fo s) (flo s) || Bltb (fhi s) (fo s) = false) /\
              (Bltb (Babs (fd s)) eps = false -> fnear_far s = (B754_infinity true, B754_infinity false))).
  { split; intros C.
    - now rewrite EL, EH, inf_lt, lt_inf.
    - assert (B : bpow radix2 (-500) <= Rabs (B2R (fd s))) by (apply blt_false in C; [rewrite B2R_Babs in C; lra|rewrite is_finite_Babs; apply Md|exact Fe]).
      destruct (g_value s Md B) as [Fg Vg]. pose proof (g_error s Md B) as Ge. rewrite <- Vg in Ge. apply Rabs_le_inv in Ge. assert (EU : u = / 9007199254740992) by reflexivity. rewrite EU in Ge.
      assert (P1 : b64_sub (B754_infinity true) (fo s) = B754_infinity true) by (destruct Mo as [F _]; destruct (fo s); try discriminate; reflexivity).
      assert (P2 : b64_sub (B754_infinity false) (fo s) = B754_infinity false) by (destruct Mo as [F _]; destruct (fo s); try discriminate; reflexivity).
      unfold fnear_far, fparam. rewrite EL, EH, P1, P2. destruct (b64_div (b64_of_Z 1) (fd s)) as [sg|sg| |sg m e h]; try discriminate; [cbn in Ge; lra|]. destruct sg; reflexivity. }
  apply ignored_anywhere. intros l tmin tmax L. cbn [fslab_loop]. destruct K as [K1 K2]. destruct (Bltb (Babs (fd s)) eps); [now rewrite K1|]. rewrite K2 by reflexivity. unfold fmax2, fmin2. rewrite inf_lt, lt_inf. now rewrite L.
Qed.
Print Assumptions C91_unbounded.

Lemma bpow_small k : (k <= 0)%Z -> bpow radix2 k <= 1.
Proof. intros H. exact (bpow_le radix2 k 0 H). Qed.
Definition f (z : Z) : b64 := b64_of_Z z.
Lemma f_val z : (1 <= z <= 2 ^ 53)%Z -> moderate (f z) /\ B2R (f z) = IZR z.
Proof.
  intros H. destruct (b64_int z H) as [V F]. split; [|exact V]. split; [exact F|]. unfold f. rewrite V, Rabs_pos_eq by (apply IZR_le; lia).
  apply Rle_trans with (bpow radix2 53); [|apply bpow_le; lia]. change (bpow radix2 53) with (IZR (2 ^ 53)). now apply IZR_le.
Qed.
Lemma zero_moderate : moderate b64_0.
Proof. split; [reflexivity|]. change (B2R b64_0) with 0. rewrite Rabs_R0. apply bpow_ge_0. Qed.
(** 2^-20 *)
Definition tol : b64 := b64_div (f 1) (f 1048576).
Lemma tol_val : is_finite tol = true /\ B2R tol = bpow radix2 (-20).
Proof.
  destruct (f_val 1 ltac:(lia)) as [[F1 _] V1]. destruct (f_val 1048576 ltac:(lia)) as [_ V2].
  assert (E : B2R (f 1) / B2R (f 1048576) = bpow radix2 (-20)) by (rewrite V1, V2; change (-20)%Z with (- (20))%Z; rewrite bpow_opp; change (bpow radix2 20) with (IZR (2 ^ 20)); change (2 ^ 20)%Z with 1048576%Z; unfold Rdiv; ring).
  destruct (div_fin (f 1) (f 1048576) (-20) F1 ltac:(rewrite V2; lra) ltac:(lia)) as [F V].
  - rewrite E. rewrite Rabs_pos_eq by apply bpow_ge_0. apply Rle_refl.
  - split; [exact F|]. unfold tol. rewrite V, E. apply round_generic; [auto with typeclass_instances|]. apply generic_format_FLT_bpow; [reflexivity|lia].
Qed.
Lemma tol_big : is_finite tol = true /\ bpow radix2 (-500) <= B2R tol.
Proof. destruct tol_val as [F V]. split; [exact F|]. rewrite V. apply bpow_le. lia. Qed.

(** A ray from (0, 0) in the direction (49, 1) and the box from (0, 1) to (49, 2): the ray passes the corner (49, 1) at the parameter 1. *)
Definition corner_case : list fslab := [mkFSlab b64_0 (f 49) b64_0 (f 49); mkFSlab b64_0 (f 1) (f 1) (f 2)].
(** It is not reported, because 49 * (1 / 49) is less than 1. *)
Theorem C91_corner_refuted : Forall regular corner_case /\ (forall s, In s corner_case -> B2R (flo s) <= place s 1 <= B2R (fhi s)) /\ fbox_interp tol corner_case = None.
Proof.
  destruct (f_val 49 ltac:(lia)) as [M49 V49]. destruct (f_val 1 ltac:(lia)) as [M1 V1]. destruct (f_val 2 ltac:(lia)) as [M2 V2]. pose proof zero_moderate as M0.
  split; [|split].
  - constructor; [|constructor; [|constructor]]; unfold regular; cbn [fo fd flo fhi]; repeat split; try apply M0; try apply M1; try apply M2; try apply M49; rewrite ?V49, ?V1, ?V2; cbn; lra.
  - intros s [<-|[<-|[]]]; unfold place; cbn [fo fd flo fhi]; rewrite ?V49, ?V1, ?V2; cbn; lra.
  - vm_compute. reflexivity.
Qed.
Print Assumptions C91_corner_refuted.

(** A box behind the origin by the smallest positive double: it is reported, because the parameter underflows to zero. *)
Definition smallest : b64 := @SF2B 53 1024 (SpecFloat.S754_finite true 1 (-1074)) eq_refl.
Definition behind_case : list fslab := [mkFSlab b64_0 (f 4) (Bopp (f 1)) smallest].
Theorem C91_behind_refuted : Forall regular behind_case /\ (forall v s, In s behind_case -> 0 <= v -> B2R (fhi s) < place s v) /\ exists t, fbox_interp tol behind_case = Some t /\ B2R t = 0.
Proof.
  destruct (f_val 4 ltac:(lia)) as [M4 V4]. destruct (f_val 1 ltac:(lia)) as [[F1 B1] V1]. pose proof zero_moderate as M0.
  assert (VS : B2R smallest = - bpow radix2 (-1074)).
  { unfold smallest. rewrite B2R_SF2B. unfold SF2R, F2R. cbn [Fnum Fexp cond_Zopp]. rewrite opp_IZR, Ropp_mult_distr_l_reverse, Rmult_1_l. reflexivity. }
  assert (S1 : bpow radix2 (-1074) <= 1) by (apply bpow_small; lia). pose proof (bpow_gt_0 radix2 (-1074)) as S0.
  split; [|split].
  - constructor; [|constructor]. unfold regular; cbn [fo fd flo fhi]. split; [exact M0|]. split; [exact M4|]. split; [split; [rewrite is_finite_Bopp; exact F1|rewrite B2R_Bopp, Rabs_Ropp; exact B1]|].
    split; [split; [reflexivity|]|].
    + rewrite VS, Rabs_Ropp, Rabs_pos_eq by lra. apply bpow_le. lia.
    + rewrite B2R_Bopp, V1, VS. lra.
  - intros v s [<-|[]] V. unfold place. cbn [fo fd fhi]. rewrite VS, V4. change (B2R b64_0) with 0. nra.
  - exists b64_0. split; [vm_compute; reflexivity|reflexivity].
Qed.
Print Assumptions C91_behind_refuted.

(** A ray from (0, 0) in the direction (1, 1) and the box from (3, 1) to (5, 4): it is reported at the parameter 3. *)
Example C91_example : let l := [mkFSlab b64_0 (f 1) (f 3) (f 5); mkFSlab b64_0 (f 1) (f 1) (f 4)] in
  Forall regular l /\ (exists t, fbox_interp tol l = Some t /\ B2R t = 3) /\ Forall (deep_in tol (7 / 2)) l.
Proof.
  intros l. destruct (f_val 1 ltac:(lia)) as [M1 V1]. destruct (f_val 3 ltac:(lia)) as [M3 V3]. destruct (f_val 4 ltac:(lia)) as [M4 V4]. destruct (f_val 5 ltac:(lia)) as [M5 V5]. pose proof zero_moderate as M0.
  split; [|split].
  - constructor; [|constructor; [|constructor]]; unfold regular; cbn [fo fd flo fhi]; repeat split; try apply M0; try apply M1; try apply M3; try apply M4; try apply M5; rewrite ?V1, ?V3, ?V4, ?V5; cbn; lra.
  - assert (E : option_map B2SF (fbox_interp tol l) = Some (B2SF (f 3))) by (vm_compute; reflexivity). destruct (fbox_interp tol l) as [t|]; [|discriminate]. exists t. split; [reflexivity|]. rewrite <- V3. f_equal. apply B2SF_inj. apply (f_equal (fun o => match o with Some x => x | None => SpecFloat.S754_nan end)) in E. exact E.
  - assert (EV : bpow radix2 (-51) = / 2251799813685248) by reflexivity. assert (T : bpow radix2 (-1074) <= bpow radix2 (-51)) by (apply bpow_le; lia). pose proof (bpow_gt_0 radix2 (-1074)).
    constructor; [|constructor; [|constructor]]; (split; [intros S; exfalso; unfold small in S; cbn [fd] in S; rewrite V1, (proj2 tol_val), Rabs_pos_eq in S by lra; assert (bpow radix2 (-20) < 1) by (exact (bpow_lt radix2 (-20) 0 ltac:(lia))); lra|]);
      intros _; unfold place, wobble; cbn [fo fd flo fhi]; rewrite ?V1, ?V3, ?V4, ?V5; change (B2R b64_0) with 0; rewrite !Rabs_pos_eq by lra; rewrite EV in *; lra.
Qed.
