From Coq Require Import Reals List Bool Arith Lia Lra.
From Verif Require Import Model.Vec Model.Mesh Model.Interp Spec.MeshSpec Spec.InterpSpec Proofs.VecLemmas Proofs.MeshBox.
Import ListNotations.
Local Open Scope R_scope.

Section W.
Variables (inp : list R) (st v0 v1 v2 : nat) (w : vec3).
Definition value (p : nat) : R :=
  nth (v0 * st + p) inp 0 * vx w + nth (v1 * st + p) inp 0 * vy w + nth (v2 * st + p) inp 0 * vz w.

Lemma write_component_spec off i out : (off + i < length out)%nat ->
  (forall k, In k [v0; v1; v2] -> (k * st + (off + i) < length inp)%nat) ->
  write_component inp st v0 v1 v2 w off i out = Some (set_nth out (off + i) (value (off + i))).
Proof.
  intros Ho Hi. unfold write_component, value. rewrite <- !Nat.add_assoc.
  rewrite (nth_error_nth' inp 0 (Hi v0 ltac:(cbn; auto))), (nth_error_nth' inp 0 (Hi v1 ltac:(cbn; auto))), (nth_error_nth' inp 0 (Hi v2 ltac:(cbn; auto))).
  apply Nat.ltb_lt in Ho. rewrite Ho. reflexivity.
Qed.
Lemma write_attrib_spec off n : forall i out, (off + i + n <= length out)%nat ->
  (forall k, In k [v0; v1; v2] -> (k * st + (off + i + n) <= length inp)%nat) ->
  exists out', write_attrib inp st v0 v1 v2 w off i n out = Some out' /\ length out' = length out /\
    forall p, nth_error out' p = if ((off + i <=? p) && (p <? off + i + n))%nat then Some (value p) else nth_error out p.
Proof.
  induction n as [|n IH]; intros i out Ho Hi; cbn [write_attrib].
  - exists out. split; [reflexivity|]. split; [reflexivity|]. intros p. destruct (Nat.leb_spec (off + i) p), (Nat.ltb_spec p (off + i + 0)); cbn [andb]; try reflexivity. lia.
  - rewrite write_component_spec; [|lia|intros k Hk; specialize (Hi k Hk); lia].
    destruct (IH (S i) (set_nth out (off + i) (value (off + i)))) as (out' & -> & L & N).
    + rewrite set_nth_length. lia.
    + intros k Hk. specialize (Hi k Hk). lia.
    + exists out'. split; [reflexivity|]. split; [rewrite L; apply set_nth_length|]. intros p. rewrite N, nth_set_nth.
      destruct (Nat.leb_spec (off + S i) p), (Nat.ltb_spec p (off + S i + n)), (Nat.leb_spec (off + i) p), (Nat.ltb_spec p (off + i + S n)),
        (Nat.eqb_spec p (off + i)), (Nat.ltb_spec (off + i) (length out)); cbn [andb]; subst; try reflexivity; lia.
Qed.
Lemma write_attribs_spec l : forall out,
  Forall (fun a => (offset a + components a <= length out)%nat /\ forall k, In k [v0; v1; v2] -> (k * st + (offset a + components a) <= length inp)%nat) l ->
  exists out', write_attribs inp st v0 v1 v2 w l out = Some out' /\ length out' = length out /\
    forall p, (covered l p -> nth_error out' p = Some (value p)) /\ (~ covered l p -> nth_error out' p = nth_error out p).
Proof.
  induction l as [|a l IH]; intros out H; cbn [write_attribs].
  - exists out. split; [reflexivity|]. split; [reflexivity|]. intros p. split; [intros (a & [] & _)|reflexivity].
  - inversion_clear H as [|? ? [H1 H2] H3]. destruct (write_attrib_spec (offset a) (components a) 0 out) as (o1 & -> & L1 & N1).
    { lia. } { intros k Hk. specialize (H2 k Hk). lia. }
    destruct (IH o1) as (o2 & -> & L2 & N2). { rewrite L1. exact H3. }
    exists o2. split; [reflexivity|]. split; [congruence|]. intros p.
    assert (Dec : covered l p \/ ~ covered l p).
    { clear. induction l as [|b l IH]; [right; intros (a & [] & _)|]. destruct IH as [(a & H1 & H2)|N]; [left; exists a; cbn; auto|].
      destruct (le_lt_dec (offset b) p); [destruct (le_lt_dec (offset b + components b) p)|].
      - right. intros (a & [<-|H] & K); [lia|apply N; exists a; auto].
      - left. exists b. split; [left; reflexivity|lia].
      - right. intros (a & [<-|H] & K); [lia|apply N; exists a; auto]. }
    destruct (N2 p) as [C1 C2]. specialize (N1 p). rewrite Nat.add_0_r in N1. split.
    + intros (b & [<-|Hb] & K).
      * destruct Dec as [D|D]; [apply C1, D|]. rewrite (C2 D), N1. destruct (Nat.leb_spec (offset a) p), (Nat.ltb_spec p (offset a + components a)); try lia. reflexivity.
      * apply C1. exists b. auto.
    + intros D. rewrite C2 by (intros (b & Hb & K); apply D; exists b; cbn; auto). rewrite N1.
      destruct (Nat.leb_spec (offset a) p), (Nat.ltb_spec p (offset a + components a)); try reflexivity. exfalso. apply D. exists a. cbn. auto.
Qed.
End W.

Lemma flat_length (l : list vertex) : length (flat_map scalars l) = (8 * length l)%nat.
Proof. induction l as [|v l IH]; [reflexivity|]. cbn [flat_map]. rewrite app_length, IH. cbn [length scalars]. lia. Qed.
Lemma flat_nth (l : list vertex) i v p : nth_error l i = Some v -> (p < 8)%nat -> nth (i * 8 + p) (flat_map scalars l) 0 = nth p (scalars v) 0.
Proof.
  revert i; induction l as [|x l IH]; intros [|i] H Hp; try discriminate.
  - cbn in H. injection H as ->. cbn [flat_map plus mult]. rewrite app_nth1 by (cbn; lia). reflexivity.
  - cbn in H. cbn [flat_map]. rewrite app_nth2 by (cbn [length scalars]; lia). cbn [length scalars]. replace (S i * 8 + p - 8)%nat with (i * 8 + p)%nat by lia. apply IH; assumption.
Qed.
Lemma default_stride : get_stride default_desc = 8%nat. Proof. reflexivity. Qed.
Lemma barycentric_spec m v i w t a b c : nth_error (tris m) i = Some t -> corners (verts m) t = Some (a, b, c) ->
  barycentric m v i w = Some (combine_vertices w a b c).
Proof.
  intros Ht Hc. unfold barycentric. rewrite Ht. unfold corners in Hc.
  destruct (nth_error (verts m) (ta t)) as [a'|] eqn:Ea; [|discriminate]. destruct (nth_error (verts m) (tb t)) as [b'|] eqn:Eb; [|discriminate].
  destruct (nth_error (verts m) (tc t)) as [c'|] eqn:Ec; [|discriminate]. injection Hc as -> -> ->.
  unfold interpolate_barycentric. rewrite default_stride.
  assert (R : forall k, In k [ta t; tb t; tc t] -> (k < length (verts m))%nat).
  { intros k [<-|[<-|[<-|[]]]]; apply nth_error_Some; congruence. }
  destruct (write_attribs_spec (flat_map scalars (verts m)) 8 (ta t) (tb t) (tc t) w (attributes default_desc) (scalars v)) as (out & E & L & N).
  { repeat constructor; cbn [offset components length scalars]; try lia; intros k Hk; apply R in Hk; rewrite flat_length; lia. }
  rewrite E. cbn [length scalars] in L.
  assert (K : forall p, (p < 8)%nat -> nth_error out p = Some (nth p (scalars a) 0 * vx w + nth p (scalars b) 0 * vy w + nth p (scalars c) 0 * vz w)).
  { intros p Hp. destruct (N p) as [N1 _]. rewrite N1.
    - unfold value. erewrite !flat_nth by eassumption. reflexivity.
    - destruct (le_lt_dec 3 p); [destruct (le_lt_dec 6 p)|]; [exists (mkAttrib 6 2)|exists (mkAttrib 3 3)|exists (mkAttrib 0 3)]; cbn; (split; [auto|lia]). }
  destruct out as [|x0 [|x1 [|x2 [|x3 [|x4 [|x5 [|x6 [|x7 [|]]]]]]]]]; try discriminate. cbn [of_scalars]. unfold combine_vertices.
  assert (K0 := K 0%nat ltac:(lia)). assert (K1 := K 1%nat ltac:(lia)). assert (K2 := K 2%nat ltac:(lia)). assert (K3 := K 3%nat ltac:(lia)).
  assert (K4 := K 4%nat ltac:(lia)). assert (K5 := K 5%nat ltac:(lia)). assert (K6 := K 6%nat ltac:(lia)). assert (K7 := K 7%nat ltac:(lia)).
  cbn in K0, K1, K2, K3, K4, K5, K6, K7. injection K0 as ->. injection K1 as ->. injection K2 as ->. injection K3 as ->. injection K4 as ->. injection K5 as ->. injection K6 as ->. injection K7 as ->.
  f_equal. f_equal; unfold combine3, combine2, vadd, vscale, add2, scale2; cbn; f_equal; ring.
Qed.
