From Coq Require Import Reals List Bool Lra Psatz Lia.
From Verif Require Import Model.Scalar Model.Vec Model.Ext Model.Plane Model.Mesh Model.Interp Model.Clip.
From Verif Require Import Spec.PlaneSpec Spec.InterpSpec Spec.ClipSpec Proofs.VecLemmas Proofs.PlaneLemmas.
Import ListNotations.
Local Open Scope R_scope.

(** ** Triangles as sets of points *)
Definition on_seg (h q r : vec3) : Prop := exists t, 0 <= t <= 1 /\ h = vadd (vscale (1 - t) q) (vscale t r).
Lemma on_seg_sym h q r : on_seg h q r -> on_seg h r q.
Proof. intros (t & Ht & ->). exists (1 - t). split; [lra|]. vring. Qed.

Lemma in_tri_rot p q r x : in_tri p q r x -> in_tri q r p x.
Proof. intros ([a b c] & (A & B & C & S) & ->). cbn in *. exists (V3 b c a). split; [unfold bary; cbn; lra|]. unfold combine3; cbn. vring. Qed.
Lemma in_tri_swap p q r x : in_tri p q r x -> in_tri q p r x.
Proof. intros ([a b c] & (A & B & C & S) & ->). cbn in *. exists (V3 b a c). split; [unfold bary; cbn; lra|]. unfold combine3; cbn. vring. Qed.

Lemma split_tri p q r h x : on_seg h q r -> in_tri p q r x -> in_tri p q h x \/ in_tri p h r x.
Proof.
  intros (t & Ht & Eh) ([a b c] & (A & B & C & S) & Ex). cbn in *.
  destruct (Req_dec t 0) as [Z|NZ].
  { right. exists (V3 a b c). split; [unfold bary; cbn; lra|]. subst. unfold combine3; cbn. vring. }
  destruct (Req_dec t 1) as [O|NO].
  { left. exists (V3 a b c). split; [unfold bary; cbn; lra|]. subst. unfold combine3; cbn. vring. }
  destruct (Rle_dec (c * (1 - t)) (b * t)) as [L|L].
  - left. exists (V3 a (b - c * (1 - t) / t) (c / t)).
    assert (0 <= c / t) by (apply Rle_mult_inv_pos; lra).
    assert (b - c * (1 - t) / t = (b * t - c * (1 - t)) / t) as -> by (field; lra).
    assert (0 <= (b * t - c * (1 - t)) / t) by (apply Rle_mult_inv_pos; lra).
    split; [unfold bary; cbn; repeat split; try assumption; transitivity (a + b + c); [field; lra|exact S]|].
    subst. unfold combine3; cbn. vdestr; vunfold. f_equal; field; exact NZ.
  - right. exists (V3 a (b / (1 - t)) (c - b * t / (1 - t))).
    assert (0 <= b / (1 - t)) by (apply Rle_mult_inv_pos; lra).
    assert (c - b * t / (1 - t) = (c * (1 - t) - b * t) / (1 - t)) as -> by (field; lra).
    assert (0 <= (c * (1 - t) - b * t) / (1 - t)) by (apply Rle_mult_inv_pos; lra).
    split; [unfold bary; cbn; repeat split; try assumption; transitivity (a + b + c); [field; lra|exact S]|].
    subst. unfold combine3; cbn. vdestr; vunfold. f_equal; field; lra.
Qed.
Lemma incl_tri p q r h x : on_seg h q r -> in_tri p q h x -> in_tri p q r x.
Proof.
  intros (t & Ht & Eh) ([a b c] & (A & B & C & S) & Ex). cbn in *.
  exists (V3 a (b + c * (1 - t)) (c * t)). split; [unfold bary; cbn; nra|]. subst. unfold combine3; cbn. vring.
Qed.

(** All orders of the corners *)
Lemma in_tri_perm p q r x : in_tri p q r x ->
  in_tri q r p x /\ in_tri r p q x /\ in_tri q p r x /\ in_tri p r q x /\ in_tri r q p x.
Proof.
  intros H. assert (A := in_tri_rot _ _ _ _ H). assert (B := in_tri_rot _ _ _ _ A). assert (C := in_tri_swap _ _ _ _ H).
  assert (D := in_tri_rot _ _ _ _ C). assert (E := in_tri_rot _ _ _ _ D). tauto.
Qed.

(** ** The edges *)
Definition value (d0 d1 d2 : R) (w : vec3) : R := vx w * d0 + vy w * d1 + vz w * d2.
Lemma side_combine alt p a b c w : vx w + vy w + vz w = 1 ->
  side alt p (combine3 w a b c) = value (side alt p a) (side alt p b) (side alt p c) w.
Proof.
  intros H. unfold side, combine3, value. rewrite !dot_add_r, !dot_scale_r.
  assert (D : distance p = (vx w + vy w + vz w) * distance p) by (rewrite H; ring).
  destruct alt; rewrite D at 1; ring.
Qed.

(** What the loop body adds for an edge between corners with values da, db. *)
Definition edge_hit (da db : R) : option R :=
  if Reqb (db - da) 0 then None else let t := - da / (db - da) in if Rleb 0 t && Rleb t 1 then Some t else None.
Definition edge_step (i j : nat) (da db : R) (rj : relation) (s : option (poly * poly)) : option (poly * poly) :=
  let s := if relation_eqb rj Onto then s else match edge_hit da db with Some t => clip_add (bary_edge i t) Onto s | None => s end in
  if (0 <? j)%nat then clip_add (bary_corner j) rj s else s.
Lemma clip_edge_eq alt neg pl i j va vb rj s :
  clip_edge alt neg pl i j va vb rj s = edge_step i j (side alt pl va) (side alt pl vb) rj s.
Proof.
  unfold clip_edge, edge_step, edge_hit, plane_interp, ediv. rewrite sgn_side, <- (side_diff alt).
  destruct (relation_eqb rj Onto); [reflexivity|].
  destruct (Reqb (side alt pl vb - side alt pl va) 0).
  - destruct (Reqb _ 0); [reflexivity|]. destruct (eqb _ _); reflexivity.
  - cbn zeta. destruct (Rleb 0 _ && Rleb _ 1); reflexivity.
Qed.

Lemma edge_hit_some da db t : edge_hit da db = Some t -> 0 <= t <= 1 /\ (1 - t) * da + t * db = 0.
Proof.
  unfold edge_hit. destruct (Reqb (db - da) 0) eqn:E; [discriminate|]. apply Reqb_false in E. cbn zeta.
  destruct (Rleb 0 (- da / (db - da))) eqn:T0; [|discriminate]. destruct (Rleb (- da / (db - da)) 1) eqn:T1; [|discriminate].
  cbn. intros [= <-]. apply Rleb_iff in T0, T1. split; [lra|]. field. exact E.
Qed.
Lemma edge_hit_cross da db : (da < 0 < db \/ db < 0 < da) -> exists t, edge_hit da db = Some t.
Proof.
  intros H. unfold edge_hit. destruct (Reqb (db - da) 0) eqn:E; [apply Reqb_iff in E; lra|]. apply Reqb_false in E. cbn zeta.
  assert (M : - da / (db - da) * (db - da) = - da) by (field; exact E).
  assert (T : 0 <= - da / (db - da) <= 1).
  { set (t := - da / (db - da)) in *. destruct H; split; nra. }
  replace (Rleb 0 (- da / (db - da))) with true by (symmetry; apply Rleb_iff; lra).
  replace (Rleb (- da / (db - da)) 1) with true by (symmetry; apply Rleb_iff; lra). eexists. reflexivity.
Qed.
Lemma edge_hit_none da db : (0 < da /\ 0 < db \/ da < 0 /\ db < 0) -> edge_hit da db = None.
Proof.
  intros H. destruct (edge_hit da db) as [t|] eqn:E; [|reflexivity]. apply edge_hit_some in E. nra.
Qed.

(** The classification of the three corners. *)
Definition classify (d eps : R) : relation := if Rltb eps d then InFrontOf else if Rltb d (- eps) then Behind else Onto.
Lemma relation_classify alt p x eps : relation_point alt p x eps = classify (side alt p x) eps.
Proof. unfold relation_point, classify. rewrite sgn_side. reflexivity. Qed.
Lemma classify_cases d eps : 0 <= eps ->
  (classify d eps = InFrontOf /\ eps < d) \/ (classify d eps = Behind /\ d < - eps) \/ (classify d eps = Onto /\ - eps <= d <= eps).
Proof.
  intros He. unfold classify. destruct (Rltb eps d) eqn:A; [apply Rltb_iff in A; auto|]. apply Rltb_false in A.
  destruct (Rltb d (- eps)) eqn:B; [apply Rltb_iff in B; auto|apply Rltb_false in B]. right; right. split; [reflexivity|lra].
Qed.

Lemma on_edge0 t : 0 <= t <= 1 -> on_seg (bary_edge 0 t) (bary_corner 0) (bary_corner 1).
Proof. intros H. exists t. split; [exact H|]. cbn. vunfold. f_equal; ring. Qed.
Lemma on_edge1 t : 0 <= t <= 1 -> on_seg (bary_edge 1 t) (bary_corner 1) (bary_corner 2).
Proof. intros H. exists t. split; [exact H|]. cbn. vunfold. f_equal; ring. Qed.
Lemma on_edge2 t : 0 <= t <= 1 -> on_seg (bary_edge 2 t) (bary_corner 2) (bary_corner 0).
Proof. intros H. exists t. split; [exact H|]. cbn. vunfold. f_equal; ring. Qed.

Definition covers (front back : poly) : Prop := forall w, bary w -> in_fan front w \/ in_fan back w.
Definition poly_ok (d0 d1 d2 lo : R) (sgn : R) (p : poly) : Prop :=
  Forall (fun w => bary w /\ lo <= sgn * value d0 d1 d2 w) p.
Definition oriented (p : poly) : Prop := forall a b c, In (a, b, c) (fan p) -> 0 <= orientation a b c.

Definition run_clip (d0 d1 d2 : R) (r0 r1 r2 : relation) : option (poly * poly) :=
  edge_step 2 0 d2 d0 r0 (edge_step 1 2 d1 d2 r2 (edge_step 0 1 d0 d1 r1 (clip_add (bary_corner 0) r0 (Some ([], []))))).

Lemma bary_in_tri w : bary w -> in_tri (bary_corner 0) (bary_corner 1) (bary_corner 2) w.
Proof. intros H. exists w. split; [exact H|]. destruct w. unfold combine3. cbn. vunfold. f_equal; ring. Qed.

Ltac hit_cases :=
  repeat match goal with
  | |- context [edge_hit ?a ?b] =>
      first [ rewrite (edge_hit_none a b) by lra
            | let t := fresh "t" in let E := fresh "E" in
              destruct (edge_hit_cross a b) as (t & E); [lra|]; rewrite E; apply edge_hit_some in E
            | let t := fresh "t" in let E := fresh "E" in
              destruct (edge_hit a b) as [t|] eqn:E; [apply edge_hit_some in E|] ]
  end.

(** Search for a fan triangle that contains the point. *)
Ltac ftri H := destruct (in_tri_perm _ _ _ _ H) as (?H & ?H & ?H & ?H & ?H).
Ltac incl_now := eapply incl_tri; [|eassumption]; eassumption.
Ltac tri_now :=
  first [assumption | incl_now | apply in_tri_rot; incl_now | apply in_tri_rot; apply in_tri_rot; incl_now
        | apply in_tri_swap; incl_now | apply in_tri_swap; apply in_tri_rot; incl_now | apply in_tri_swap; apply in_tri_rot; apply in_tri_rot; incl_now].
Ltac in_fan_now :=
  match goal with
  | |- in_fan _ _ =>
      first [ solve [do 3 eexists; split; [cbn [fan fan_from In]; left; reflexivity|tri_now]]
            | solve [do 3 eexists; split; [cbn [fan fan_from In]; right; left; reflexivity|tri_now]] ]
  end.
Ltac finish_cov := first [left; in_fan_now | right; in_fan_now].
Ltac keep H1 := repeat match goal with K : in_tri _ _ _ _ |- _ => lazymatch K with H1 => fail | _ => clear K end end.
Ltac cov n :=
  first
  [ solve [finish_cov]
  | match n with
    | S ?m =>
        match goal with
        | S : on_seg ?h ?q ?r, H : in_tri ?p ?q ?r ?x |- _ =>
            let H1 := fresh "T" in
            destruct (split_tri p q r h x S H) as [H1|H1]; keep H1; ftri H1; solve [cov m]
        end
    end ].

Lemma clip_good d0 d1 d2 eps : 0 <= eps ->
  let r0 := classify d0 eps in let r1 := classify d1 eps in let r2 := classify d2 eps in
  ~ (r0 <> Behind /\ r1 <> Behind /\ r2 <> Behind) -> ~ (r0 = Behind /\ r1 = Behind /\ r2 = Behind) ->
  exists front back, run_clip d0 d1 d2 r0 r1 r2 = Some (front, back) /\
  covers front back /\ poly_ok d0 d1 d2 (- eps) 1 front /\ poly_ok d0 d1 d2 (- eps) (-1) back /\
  oriented front /\ oriented back /\
  (3 <= length back <= 4)%nat /\ (length front <= 4)%nat /\ (eps < d0 \/ eps < d1 \/ eps < d2 -> (3 <= length front)%nat).
Proof.
  intros He r0 r1 r2. unfold r0, r1, r2. clear r0 r1 r2.
  destruct (classify_cases d0 eps He) as [(E0 & D0)|[(E0 & D0)|(E0 & D0)]], (classify_cases d1 eps He) as [(E1 & D1)|[(E1 & D1)|(E1 & D1)]],
    (classify_cases d2 eps He) as [(E2 & D2)|[(E2 & D2)|(E2 & D2)]]; rewrite E0, E1, E2; intros N1 N2;
  try (exfalso; apply N1; repeat split; discriminate); try (exfalso; apply N2; repeat split; reflexivity); clear N1 N2 E0 E1 E2;
  unfold run_clip, edge_step; cbn [relation_eqb Nat.ltb Nat.leb]; hit_cases.
  all: cbn [clip_add poly_add length Nat.ltb Nat.leb app].
  all: do 2 eexists; split; [reflexivity|].
  all: repeat match goal with E : 0 <= _ <= 1 /\ _ |- _ => destruct E end.
  all: split; [|split; [|split; [|split; [|split; [|cbn; split; [lia|split; [lia|intros; try lia; exfalso; lra]]]]]]].
  all: try (apply Forall_forall; intros w Hw; cbn [In] in Hw;
            repeat match goal with H : _ \/ _ |- _ => destruct H end; try contradiction; subst;
            unfold bary, value; cbn [bary_edge bary_corner vx vy vz]; lra).
  all: try (intros a b c Hw; cbn [In fan fan_from] in Hw;
            repeat match goal with H : _ \/ _ |- _ => destruct H end; try contradiction;
            match goal with H : _ = _ |- _ => injection H as <- <- <- end;
            unfold orientation, dot, cross; cbn [bary_edge bary_corner vx vy vz]; nra).
  all: intros w Hw; apply bary_in_tri in Hw; ftri Hw.
  all: repeat match goal with
       | B : 0 <= ?t <= 1 |- context [bary_edge 0 ?t] =>
           lazymatch goal with _ : on_seg (bary_edge 0 t) _ _ |- _ => fail | _ => let S := fresh "S" in assert (S := on_edge0 t B); let S' := fresh "S" in assert (S' := on_seg_sym _ _ _ S) end
       | B : 0 <= ?t <= 1 |- context [bary_edge 1 ?t] =>
           lazymatch goal with _ : on_seg (bary_edge 1 t) _ _ |- _ => fail | _ => let S := fresh "S" in assert (S := on_edge1 t B); let S' := fresh "S" in assert (S' := on_seg_sym _ _ _ S) end
       | B : 0 <= ?t <= 1 |- context [bary_edge 2 ?t] =>
           lazymatch goal with _ : on_seg (bary_edge 2 t) _ _ |- _ => fail | _ => let S := fresh "S" in assert (S := on_edge2 t B); let S' := fresh "S" in assert (S' := on_seg_sym _ _ _ S) end
       end.
  all: cov 3%nat.
Qed.

(** ** The whole function *)
Lemma clip_triangle_spec alt neg pl a b c eps : 0 <= eps ->
  let da := side alt pl a in let db := side alt pl b in let dc := side alt pl c in
  let all_front := - eps <= da /\ - eps <= db /\ - eps <= dc in
  let all_back := da < - eps /\ db < - eps /\ dc < - eps in
  (all_front /\ clip_triangle alt neg pl a b c eps = Some (InFrontOf, ([], []))) \/
  (all_back /\ clip_triangle alt neg pl a b c eps = Some (Behind, ([], []))) \/
  (~ all_front /\ ~ all_back /\ exists front back,
     clip_triangle alt neg pl a b c eps = Some (Clipped, (front, back)) /\
     covers front back /\ poly_ok da db dc (- eps) 1 front /\ poly_ok da db dc (- eps) (-1) back /\
     oriented front /\ oriented back /\
     (3 <= length back <= 4)%nat /\ (length front <= 4)%nat /\ (eps < da \/ eps < db \/ eps < dc -> (3 <= length front)%nat)).
Proof.
  intros He da db dc all_front all_back. unfold clip_triangle. rewrite !relation_classify, !clip_edge_eq. fold da db dc.
  assert (K := clip_good da db dc eps He). cbn zeta in K. unfold run_clip in K.
  assert (B : forall d, relation_eqb (classify d eps) Behind = true <-> d < - eps).
  { intros d. destruct (classify_cases d eps He) as [(E & D)|[(E & D)|(E & D)]]; rewrite E; cbn; split; try discriminate; try reflexivity; lra. }
  assert (B' : forall d, classify d eps = Behind <-> d < - eps).
  { intros d. destruct (classify_cases d eps He) as [(E & D)|[(E & D)|(E & D)]]; rewrite E; split; try discriminate; try reflexivity; lra. }
  destruct (relation_eqb (classify da eps) Behind) eqn:E0, (relation_eqb (classify db eps) Behind) eqn:E1, (relation_eqb (classify dc eps) Behind) eqn:E2;
    cbn [negb andb];
    repeat match goal with
    | E : relation_eqb (classify ?d eps) Behind = true |- _ => apply B in E
    | E : relation_eqb (classify ?d eps) Behind = false |- _ =>
        let F := fresh "F" in assert (F : - eps <= d) by (destruct (Rle_dec (- eps) d); [assumption|exfalso; assert (G : d < - eps) by lra; apply B in G; congruence]); clear E
    end.
  1: right; left; split; [unfold all_back; lra|reflexivity].
  7: left; split; [unfold all_front; lra|reflexivity].
  all: right; right; unfold all_front, all_back; split; [lra|]; split; [lra|].
  all: destruct K as (front & back & E & K); [rewrite !B'; lra|rewrite !B'; lra|].
  all: exists front, back; rewrite E; split; [reflexivity|exact K].
Qed.
