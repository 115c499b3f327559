From Coq Require Import Reals List Bool Lra Psatz Arith Lia.
From Verif Require Import Model.Scalar Model.Vec Model.Ext Model.Plane Model.Coll Model.Tri.
From Verif Require Import Spec.InterpSpec Spec.ClipSpec Spec.PlaneSpec Spec.CollSpec Spec.TriSpec Proofs.VecLemmas Proofs.LineLemmas Proofs.TriLemmas Proofs.TriHit.
Import ListNotations.
Local Open Scope R_scope.

Lemma proper_dec t : proper t \/ ~ proper t.
Proof.
  unfold proper. set (n := cross _ _). destruct (Req_dec (dot n n) 0) as [E|E].
  - right. intros H. apply H, dot_self_0, E.
  - left. intros H. apply E. rewrite H. unfold dot, vzero. cbn. ring.
Qed.
Lemma line_direction_rev e : line_direction (mkLine (lb e) (la e)) = vopp (line_direction e).
Proof. unfold line_direction. cbn [la lb]. destruct e as [p q]. cbn [la lb]. vring. Qed.
Lemma on_segment_rev e x : on_segment (mkLine (lb e) (la e)) x <-> on_segment e x.
Proof.
  unfold on_segment. cbn [la lb]. split; intros (t & T & ->); exists (1 - t); (split; [lra|]); clear; destruct e as [p q]; cbn [la lb]; vring.
Qed.

(** An edge crosses a triangle. *)
Definition crosses (t : triangle) (e : line) (x : vec3) : Prop :=
  dot (tri_normal t) (line_direction e) <> 0 /\ in_triangle t x /\ on_segment e x.

Lemma edge_test_spec alt neg t e x : edge_test alt neg t e = Some x <-> crosses t e x.
Proof.
  unfold edge_test, crosses. destruct (proper_dec t) as [P|P].
  2:{ rewrite !(triangle_line_degenerate alt _ t _ P). split; [discriminate|]. intros (D & _). exfalso. apply P.
      unfold proper. intros Z. apply D. change (tri_normal t = vzero) in Z. rewrite Z. unfold dot, vzero. cbn. ring. }
  assert (Pl := plane_of_is alt t P).
  assert (S1 := fun y => triangle_line_plane_spec alt (neg 0%nat) t _ e y P Pl).
  assert (S2 := fun y => triangle_line_plane_spec alt (neg 1%nat) t _ (mkLine (lb e) (la e)) y P Pl).
  fold (triangle_line alt (neg 0%nat) t e) in S1. fold (triangle_line alt (neg 1%nat) t (mkLine (lb e) (la e))) in S2.
  unfold enters in *. fold (tri_normal t) in *. change (cross (vsub (pb t) (pa t)) (vsub (pc t) (pa t))) with (tri_normal t) in *.
  setoid_rewrite line_direction_rev in S2. setoid_rewrite dot_opp_r in S2. setoid_rewrite on_segment_rev in S2. split.
  - destruct (triangle_line alt (neg 0%nat) t e) as [|y|] eqn:E1.
    + destruct (triangle_line alt (neg 1%nat) t _) as [|y|] eqn:E2; try discriminate. intros [= <-].
      destruct (proj1 (S2 y) eq_refl) as (A & B & C). split; [lra|split; assumption].
    + intros [= <-]. destruct (proj1 (S1 y) eq_refl) as (A & B & C). split; [lra|split; assumption].
    + exfalso. exact (triangle_line_plane_finite _ _ _ _ _ E1).
  - intros (D & I & O). destruct (Rlt_dec (dot (tri_normal t) (line_direction e)) 0) as [L|L].
    + rewrite (proj2 (S1 x)); [reflexivity|]. split; [exact L|split; assumption].
    + assert (E2 : triangle_line alt (neg 1%nat) t (mkLine (lb e) (la e)) = Hit x) by (apply S2; split; [lra|split; assumption]).
      destruct (triangle_line alt (neg 0%nat) t e) as [|y|] eqn:E1.
      * rewrite E2. reflexivity.
      * destruct (proj1 (S1 y) eq_refl) as (A & _). lra.
      * rewrite E2. reflexivity.
Qed.

Lemma two_hits_sound alt neg l : forall k found r, two_hits alt neg k l found = Some r ->
  (match found with Some y => la r = y | None => exists t e, In (t, e) l /\ crosses t e (la r) end) /\
  exists t e, In (t, e) l /\ crosses t e (lb r).
Proof.
  induction l as [|[t e] l IH]; intros k found r; cbn [two_hits]; [discriminate|].
  destruct (edge_test alt (neg k) t e) as [x|] eqn:E.
  - apply edge_test_spec in E. destruct found as [y|].
    + intros [= <-]. cbn. split; [reflexivity|]. exists t, e. split; [left; reflexivity|exact E].
    + intros H. destruct (IH _ _ _ H) as (A & t' & e' & I & C). split; [rewrite A; exists t, e; split; [left; reflexivity|exact E]|].
      exists t', e'. split; [right; exact I|exact C].
  - intros H. destruct (IH _ _ _ H) as (A & t' & e' & I & C). split.
    + destruct found as [y|]; [exact A|]. destruct A as (t2 & e2 & I2 & C2). exists t2, e2. split; [right; exact I2|exact C2].
    + exists t', e'. split; [right; exact I|exact C].
Qed.
Lemma two_hits_one alt neg l : forall k y t e x, In (t, e) l -> crosses t e x -> two_hits alt neg k l (Some y) <> None.
Proof.
  induction l as [|[t' e'] l IH]; intros k y t e x I C; cbn [two_hits]; [contradiction|].
  destruct (edge_test alt (neg k) t' e') eqn:E; [discriminate|]. destruct I as [[= -> ->]|I].
  - apply (edge_test_spec alt (neg k)) in C. congruence.
  - eapply IH; eassumption.
Qed.
Lemma two_hits_two alt neg l : forall k i j t e x t' e' x', (i < j)%nat -> nth_error l i = Some (t, e) -> crosses t e x ->
  nth_error l j = Some (t', e') -> crosses t' e' x' -> two_hits alt neg k l None <> None.
Proof.
  induction l as [|[t0 e0] l IH]; intros k i j t e x t' e' x' L Hi Ci Hj Cj; [destruct i; discriminate|]. cbn [two_hits].
  destruct j as [|j]; [lia|]. cbn in Hj. destruct (edge_test alt (neg k) t0 e0) eqn:E.
  - eapply two_hits_one; [eapply nth_error_In, Hj|exact Cj].
  - destruct i as [|i]; cbn in Hi.
    + injection Hi as -> ->. apply (edge_test_spec alt (neg k)) in Ci. congruence.
    + eapply (IH (S k) i j); try eassumption. lia.
Qed.

(** Where a ray leaves a region given by linear inequalities *)
Lemma exit (l : list (R * R)) : (forall p, In p l -> 0 <= fst p) -> (exists p, In p l /\ snd p < 0) ->
  exists s j a b, 0 <= s /\ nth_error l j = Some (a, b) /\ b < 0 /\ a + s * b = 0 /\ forall p, In p l -> 0 <= fst p + s * snd p.
Proof.
  induction l as [|[a b] l IH]; intros H E; [destruct E as (? & [] & _)|].
  assert (Ha := H (a, b) (or_introl eq_refl)). cbn in Ha.
  assert (D : (exists p, In p l /\ snd p < 0) \/ forall p, In p l -> 0 <= snd p).
  { clear. induction l as [|[a b] l IH]; [right; intros ? []|]. destruct (Rlt_dec b 0) as [L|L].
    - left. exists (a, b). split; [left; reflexivity|exact L].
    - destruct IH as [(p & I & N)|IH]; [left; exists p; split; [right; exact I|exact N]|]. right. intros p [<-|I]; [cbn; lra|apply IH, I]. }
  destruct D as [D|D].
  - destruct IH as (s & j & a' & b' & S & J & B & Z & F); [intros p I; apply H; right; exact I|exact D|].
    destruct (Rle_dec 0 (a + s * b)) as [K|K].
    + exists s, (Datatypes.S j), a', b'. split; [exact S|]. split; [exact J|]. split; [exact B|]. split; [exact Z|].
      intros p [<-|I]; [exact K|apply F, I].
    + assert (Nb : b < 0) by nra. exists (a / - b), 0%nat, a, b.
      assert (Q : a / - b * b = - a) by (field; lra). assert (P : 0 <= a / - b) by (apply Rmult_le_pos; [lra|left; apply Rinv_0_lt_compat; lra]).
      split; [exact P|]. split; [reflexivity|]. split; [exact Nb|]. split; [lra|].
      intros p [<-|I]; [cbn; lra|]. assert (F1 := F p I). assert (F0 := H p (or_intror I)).
      assert (Ls : a / - b <= s) by (apply (Rmult_le_reg_r (- b)); [lra|]; replace (a / - b * - b) with a by (field; lra); lra).
      set (r := a / - b) in *. destruct (Rle_dec 0 (snd p)); [assert (0 <= r * snd p) by (apply Rmult_le_pos; assumption); lra|].
      assert (s * snd p <= r * snd p) by nra. lra.
  - destruct E as (p & [<-|I] & N); [|specialize (D p I); lra]. cbn in N. exists (a / - b), 0%nat, a, b.
    assert (Q : a / - b * b = - a) by (field; lra). assert (P : 0 <= a / - b) by (apply Rmult_le_pos; [lra|left; apply Rinv_0_lt_compat; lra]).
    split; [exact P|]. split; [reflexivity|]. split; [exact N|]. split; [lra|].
    intros p [<-|I]; [cbn; lra|]. specialize (D p I). assert (F0 := H p (or_intror I)). assert (0 <= a / - b * snd p) by (apply Rmult_le_pos; assumption). lra.
Qed.

Lemma combine3_add w u s a b c : combine3 (vadd w (vscale s u)) a b c = vadd (combine3 w a b c) (vscale s (combine3 u a b c)).
Proof. unfold combine3. vring. Qed.

(** A direction in the plane of a triangle, in its coordinates *)
Lemma direction_weights t d : proper t -> dot (tri_normal t) d = 0 ->
  exists u, vx u + vy u + vz u = 0 /\ d = combine3 u (pa t) (pb t) (pc t).
Proof.
  intros P D. destruct (coplanar_weights t (vadd (pa t) d) P) as (w & S & E).
  - unfold coplanar, above. change (cross (vsub (pb t) (pa t)) (vsub (pc t) (pa t))) with (tri_normal t).
    replace (vsub (vadd (pa t) d) (pa t)) with d by (clear; generalize (pa t); intros; vring). exact D.
  - exists (vadd w (V3 (-1) 0 0)). unfold affine_weights in S. destruct w as [u v w]. unfold vadd at 1 2 3. cbn [vx vy vz] in *. split; [lra|].
    transitivity (vsub (vadd (pa t) d) (pa t)); [clear; generalize (pa t); intros; vring|]. rewrite E. unfold combine3. cbn [vx vy vz vadd]. clear.
    destruct t as [a b c]. cbn [pa pb pc]. vring.
Qed.

(** The coordinate that vanishes on an edge, in the order of the edges *)
Definition opposite (w : vec3) : list R := [vz w; vx w; vy w].
Lemma opposite_zero t w i e : bary w -> nth_error (edges t) i = Some e -> nth_error (opposite w) i = Some 0 -> on_segment e (combine3 w (pa t) (pb t) (pc t)).
Proof.
  destruct t as [a b c], w as [u v w]. unfold edges, opposite, bary, combine3. cbn [vx vy vz pa pb pc]. intros B E Z.
  destruct i as [|[|[|i]]]; cbn in E, Z; [| | |destruct i; discriminate]; injection E as <-; injection Z as Z; unfold on_segment; cbn [la lb].
  - exists v. split; [lra|]. replace u with (1 - v) by lra. rewrite Z. clear. vring.
  - exists w. split; [lra|]. replace v with (1 - w) by lra. rewrite Z. clear. vring.
  - exists u. split; [lra|]. replace w with (1 - u) by lra. rewrite Z. clear. vring.
Qed.
Lemma opposite_slope t n d u i e r : proper t -> d = cross n (tri_normal t) -> vx u + vy u + vz u = 0 -> d = combine3 u (pa t) (pb t) (pc t) ->
  nth_error (edges t) i = Some e -> nth_error (opposite u) i = Some r -> r <> 0 -> dot n (line_direction e) <> 0.
Proof.
  intros P D S Eu E Z Nz H. apply Nz. clear Nz. assert (N := dot_self_pos _ P).
  assert (K : dot (cross d (line_direction e)) (tri_normal t) = 0).
  { rewrite D.
    assert (T : dot (tri_normal t) (line_direction e) = 0).
    { destruct t as [a b c]. unfold edges, tri_normal, line_direction in *. cbn [pa pb pc] in *.
      destruct i as [|[|[|i]]]; cbn in E; [| | |destruct i; discriminate]; injection E as <-; cbn [la lb]; clear; vring. }
    clear - H T. transitivity (dot (tri_normal t) (tri_normal t) * dot n (line_direction e) - dot n (tri_normal t) * dot (tri_normal t) (line_direction e)).
    - generalize (tri_normal t) (line_direction e). intros. clear. vring.
    - rewrite H, T. ring. }
  assert (F : dot (cross d (line_direction e)) (tri_normal t) = r * dot (tri_normal t) (tri_normal t) \/
              dot (cross d (line_direction e)) (tri_normal t) = - r * dot (tri_normal t) (tri_normal t)).
  { rewrite Eu. clear - S E Z. destruct t as [a b c], u as [u v w]. unfold edges, opposite, line_direction, tri_normal, combine3 in *. cbn [pa pb pc vx vy vz] in *.
    replace u with (- v - w) in * by lra. clear S.
    destruct i as [|[|[|i]]]; cbn in E, Z; [| | |destruct i; discriminate]; injection E as <-; injection Z as <-; cbn [la lb].
    - right. vring.
    - right. vring.
    - right. vring. }
  rewrite K in F. change (0 < dot (tri_normal t) (tri_normal t)) in N. destruct F; nra.
Qed.

Definition tests (s t : triangle) : list (triangle * line) := map (fun e => (s, e)) (edges t) ++ map (fun e => (t, e)) (edges s).
Definition slopes (u : vec3) (v : vec3) : list R := opposite u ++ opposite v.

Lemma opposite_neg u : vx u + vy u + vz u = 0 -> u <> vzero -> exists i r, nth_error (opposite u) i = Some r /\ r < 0.
Proof.
  intros S N. destruct u as [u v w]. unfold opposite. cbn [vx vy vz] in *.
  destruct (Rlt_dec w 0); [exists 0%nat, w; split; [reflexivity|assumption]|].
  destruct (Rlt_dec u 0); [exists 1%nat, u; split; [reflexivity|assumption]|].
  destruct (Rlt_dec v 0); [exists 2%nat, v; split; [reflexivity|assumption]|].
  exfalso. apply N. unfold vzero. f_equal; lra.
Qed.

(** Along the common line of the two planes, one comes to a point where an edge crosses. *)
Lemma reach s t x d k u v wt ws :
  proper s -> proper t -> k <> 0 -> d = vscale k (cross (tri_normal s) (tri_normal t)) -> d <> vzero ->
  bary wt -> x = combine3 wt (pa t) (pb t) (pc t) -> bary ws -> x = combine3 ws (pa s) (pb s) (pc s) ->
  vx u + vy u + vz u = 0 -> d = combine3 u (pa t) (pb t) (pc t) -> vx v + vy v + vz v = 0 -> d = combine3 v (pa s) (pb s) (pc s) ->
  exists j a e y r, nth_error (tests s t) j = Some (a, e) /\ crosses a e y /\ nth_error (slopes u v) j = Some r /\ r < 0.
Proof.
  intros Ps Pt K D Dz Bt Xt Bs Xs Su Du Sv Dv.
  assert (Uz : u <> vzero) by (intros ->; apply Dz; rewrite Du; unfold combine3, vzero; cbn [vx vy vz]; clear; vring).
  destruct (exit (List.combine (opposite wt ++ opposite ws) (slopes u v))) as (q & j & a & b & Q & J & B & Z & F).
  - unfold slopes, opposite, bary in *. cbn. intros p H. repeat (destruct H as [<-|H]; [cbn; lra|]). contradiction.
  - destruct (opposite_neg u Su Uz) as (i & r & E & N). unfold slopes, opposite in *. cbn.
    destruct i as [|[|[|i]]]; cbn in E; [| | |destruct i; discriminate]; injection E as <-.
    + exists (vz wt, vz u). split; [auto|exact N].
    + exists (vx wt, vx u). split; [auto|exact N].
    + exists (vy wt, vy u). split; [auto|exact N].
  - assert (Bt' : bary (vadd wt (vscale q u))).
    { unfold slopes, opposite, bary, vadd, vscale in *. cbn in F |- *.
      assert (F0 := F (vz wt, vz u) ltac:(auto)). assert (F1 := F (vx wt, vx u) ltac:(auto)). assert (F2 := F (vy wt, vy u) ltac:(auto)).
      cbn in F0, F1, F2. repeat split; try lra.
      transitivity (vx wt + vy wt + vz wt + q * (vx u + vy u + vz u)); [ring|]. rewrite Su. lra. }
    assert (Bs' : bary (vadd ws (vscale q v))).
    { unfold slopes, opposite, bary, vadd, vscale in *. cbn in F |- *.
      assert (F0 := F (vz ws, vz v) ltac:(tauto)). assert (F1 := F (vx ws, vx v) ltac:(tauto)). assert (F2 := F (vy ws, vy v) ltac:(tauto)).
      cbn in F0, F1, F2. repeat split; try lra.
      transitivity (vx ws + vy ws + vz ws + q * (vx v + vy v + vz v)); [ring|]. rewrite Sv. lra. }
    set (y := vadd x (vscale q d)).
    assert (Yt : y = combine3 (vadd wt (vscale q u)) (pa t) (pb t) (pc t)) by (unfold y; rewrite combine3_add, <- Xt, <- Du; reflexivity).
    assert (Ys : y = combine3 (vadd ws (vscale q v)) (pa s) (pb s) (pc s)) by (unfold y; rewrite combine3_add, <- Xs, <- Dv; reflexivity).
    assert (It : in_triangle t y) by (eexists; split; [exact Bt'|exact Yt]).
    assert (Is : in_triangle s y) by (eexists; split; [exact Bs'|exact Ys]).
    assert (Pt1 : d = cross (vscale k (tri_normal s)) (tri_normal t)) by (rewrite D; clear; generalize (tri_normal s) (tri_normal t); intros; vring).
    assert (Ps1 : d = cross (vscale (- k) (tri_normal t)) (tri_normal s)) by (rewrite D; clear; generalize (tri_normal s) (tri_normal t); intros; vring).
    assert (W : forall i e c, nth_error (edges t) i = Some e -> nth_error (opposite wt) i = Some c -> nth_error (opposite u) i = Some b -> c + q * b = 0 ->
      crosses s e y).
    { intros i e c Ee Ec Eb Z0. split; [|split; [exact Is|]].
      - assert (H := opposite_slope t (vscale k (tri_normal s)) d u i e b Pt Pt1 Su Du Ee Eb). rewrite dot_scale_l in H. intros H0. apply H; [lra|]. rewrite H0. ring.
      - rewrite Yt. apply (opposite_zero t _ i); [exact Bt'|exact Ee|]. unfold opposite, vadd, vscale in *. cbn [vx vy vz].
        destruct i as [|[|[|i]]]; cbn in *; [| | |destruct i; discriminate]; injection Ec as ->; injection Eb as ->; f_equal; exact Z0. }
    assert (W' : forall i e c, nth_error (edges s) i = Some e -> nth_error (opposite ws) i = Some c -> nth_error (opposite v) i = Some b -> c + q * b = 0 ->
      crosses t e y).
    { intros i e c Ee Ec Eb Z0. split; [|split; [exact It|]].
      - assert (H := opposite_slope s (vscale (- k) (tri_normal t)) d v i e b Ps Ps1 Sv Dv Ee Eb). rewrite dot_scale_l in H. intros H0. apply H; [lra|]. rewrite H0. ring.
      - rewrite Ys. apply (opposite_zero s _ i); [exact Bs'|exact Ee|]. unfold opposite, vadd, vscale in *. cbn [vx vy vz].
        destruct i as [|[|[|i]]]; cbn in *; [| | |destruct i; discriminate]; injection Ec as ->; injection Eb as ->; f_equal; exact Z0. }
    clear - J B Z W W'. unfold slopes, tests in *.
    destruct j as [|[|[|[|[|[|j]]]]]]; cbn in J; [| | | | | |destruct j; discriminate]; injection J as Ja Jb.
    + exists 0%nat, s, (mkLine (pa t) (pb t)), y, b. split; [reflexivity|]. split; [eapply (W 0%nat); [reflexivity|reflexivity|cbn; congruence|rewrite Ja; exact Z]|]. split; [cbn; congruence|exact B].
    + exists 1%nat, s, (mkLine (pb t) (pc t)), y, b. split; [reflexivity|]. split; [eapply (W 1%nat); [reflexivity|reflexivity|cbn; congruence|rewrite Ja; exact Z]|]. split; [cbn; congruence|exact B].
    + exists 2%nat, s, (mkLine (pc t) (pa t)), y, b. split; [reflexivity|]. split; [eapply (W 2%nat); [reflexivity|reflexivity|cbn; congruence|rewrite Ja; exact Z]|]. split; [cbn; congruence|exact B].
    + exists 3%nat, t, (mkLine (pa s) (pb s)), y, b. split; [reflexivity|]. split; [eapply (W' 0%nat); [reflexivity|reflexivity|cbn; congruence|rewrite Ja; exact Z]|]. split; [cbn; congruence|exact B].
    + exists 4%nat, t, (mkLine (pb s) (pc s)), y, b. split; [reflexivity|]. split; [eapply (W' 1%nat); [reflexivity|reflexivity|cbn; congruence|rewrite Ja; exact Z]|]. split; [cbn; congruence|exact B].
    + exists 5%nat, t, (mkLine (pc s) (pa s)), y, b. split; [reflexivity|]. split; [eapply (W' 2%nat); [reflexivity|reflexivity|cbn; congruence|rewrite Ja; exact Z]|]. split; [cbn; congruence|exact B].
Qed.

Lemma triangle_triangle_complete alt neg s t x : proper s -> proper t ->
  ~ (coplanar s (pa t) /\ coplanar s (pb t) /\ coplanar s (pc t)) ->
  in_triangle s x -> in_triangle t x -> triangle_triangle alt neg s t <> None.
Proof.
  intros Ps Pt NC (ws & Bs & Xs) (wt & Bt & Xt).
  set (d := cross (tri_normal s) (tri_normal t)).
  assert (Dz : d <> vzero).
  { intros Z. apply NC. assert (As : above s x = 0) by (rewrite Xs; apply above_combine, bary_affine, Bs).
    (* n_s is a multiple of n_t *)
    assert (N := dot_self_pos _ Pt). change (0 < dot (tri_normal t) (tri_normal t)) in N.
    assert (G : forall y, dot (tri_normal t) (vsub y x) = 0 -> above s y = 0).
    { intros y Y. assert (E : dot (tri_normal t) (tri_normal t) * dot (tri_normal s) (vsub y x) = 0).
      { transitivity (dot (tri_normal s) (tri_normal t) * dot (tri_normal t) (vsub y x) + dot (cross (cross (tri_normal t) (tri_normal s)) (tri_normal t)) (vsub y x)).
        - generalize (tri_normal s) (tri_normal t) (vsub y x). clear. intros. vring.
        - rewrite Y. replace (cross (tri_normal t) (tri_normal s)) with (vopp d) by (unfold d; clear; generalize (tri_normal s) (tri_normal t); intros; vring).
          rewrite Z. generalize (tri_normal t) (vsub y x) (dot (tri_normal s) (tri_normal t)). clear. intros. unfold vzero. vring. }
      apply Rmult_integral in E. destruct E as [E|E]; [lra|]. unfold above in *. change (cross (vsub (pb s) (pa s)) (vsub (pc s) (pa s))) with (tri_normal s) in *.
      replace (vsub y (pa s)) with (vadd (vsub y x) (vsub x (pa s))) by (clear; generalize (pa s); intros; vring). rewrite dot_add_r. lra. }
    unfold coplanar. rewrite Xt in G. unfold bary in Bt. destruct wt as [u v w]. cbn [vx vy vz] in Bt.
    repeat split; apply G; destruct t as [a b c]; unfold tri_normal, combine3; cbn [pa pb pc vx vy vz]; replace u with (1 - v - w) by lra; clear; vring. }
  assert (Ds : dot (tri_normal s) d = 0) by (unfold d; clear; generalize (tri_normal s) (tri_normal t); intros; vring).
  assert (Dt : dot (tri_normal t) d = 0) by (unfold d; clear; generalize (tri_normal s) (tri_normal t); intros; vring).
  destruct (direction_weights t d Pt Dt) as (u & Su & Du). destruct (direction_weights s d Ps Ds) as (v & Sv & Dv).
  destruct (reach s t x d 1 u v wt ws) as (j & a & e & y & r & J & C & R & N); try assumption; [lra|unfold d; clear; generalize (tri_normal s) (tri_normal t); intros; vring|].
  destruct (reach s t x (vopp d) (-1) (vopp u) (vopp v) wt ws) as (j' & a' & e' & y' & r' & J' & C' & R' & N'); try assumption; try lra.
  { unfold d; clear; generalize (tri_normal s) (tri_normal t); intros; vring. }
  { intros E. apply Dz. transitivity (vopp (vopp d)); [clear; destruct d; unfold vopp; cbn; f_equal; ring|]. rewrite E. unfold vopp, vzero. cbn. f_equal; ring. }
  { unfold vopp. cbn. lra. }
  { rewrite Du. unfold combine3. clear. generalize (pa t) (pb t) (pc t). intros. vring. }
  { unfold vopp. cbn. lra. }
  { rewrite Dv. unfold combine3. clear. generalize (pa s) (pb s) (pc s). intros. vring. }
  assert (Nj : j <> j').
  { intros <-. assert (r' = - r); [|lra]. unfold slopes, opposite, vopp in *. cbn [vx vy vz app] in *.
    destruct j as [|[|[|[|[|[|j]]]]]]; cbn in R, R'; try congruence. destruct j; discriminate. }
  unfold triangle_triangle. fold (tests s t). destruct (lt_dec j j').
  - eapply two_hits_two; [|exact J|exact C|exact J'|exact C']. assumption.
  - eapply two_hits_two; [|exact J'|exact C'|exact J|exact C]. lia.
Qed.

Lemma edge_in_triangle t e x : In e (edges t) -> on_segment e x -> in_triangle t x.
Proof.
  destruct t as [a b c]. unfold edges, in_triangle, in_tri, on_segment. cbn [pa pb pc].
  intros [<-|[<-|[<-|[]]]] (q & Q & ->); cbn [la lb].
  - exists (V3 (1 - q) q 0). unfold bary, combine3. cbn [vx vy vz]. split; [repeat split; lra|clear; vring].
  - exists (V3 0 (1 - q) q). unfold bary, combine3. cbn [vx vy vz]. split; [repeat split; lra|clear; vring].
  - exists (V3 q 0 (1 - q)). unfold bary, combine3. cbn [vx vy vz]. split; [repeat split; lra|clear; vring].
Qed.
Lemma tests_sound s t a e x : In (a, e) (tests s t) -> crosses a e x -> in_triangle s x /\ in_triangle t x.
Proof.
  unfold tests. intros I (_ & A & B). apply in_app_or in I. destruct I as [I|I]; apply in_map_iff in I; destruct I as (e' & E & I); injection E as <- <-.
  - split; [exact A|]. exact (edge_in_triangle t e' x I B).
  - split; [|exact A]. exact (edge_in_triangle s e' x I B).
Qed.
Lemma triangle_triangle_sound alt neg s t l : triangle_triangle alt neg s t = Some l ->
  in_triangle s (la l) /\ in_triangle t (la l) /\ in_triangle s (lb l) /\ in_triangle t (lb l).
Proof.
  intros H. unfold triangle_triangle in H. fold (tests s t) in H. apply two_hits_sound in H. destruct H as ((a & e & I & C) & a' & e' & I' & C').
  destruct (tests_sound s t a e _ I C). destruct (tests_sound s t a' e' _ I' C'). repeat split; assumption.
Qed.
