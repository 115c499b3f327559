(** Digits of pi, by Machin's formula. *)
From Coq Require Import Reals Lra Machin Ratan ZArith.
Local Open Scope R_scope.

Lemma pi_digits : 3.14159265358979323 < PI < 3.14159265358979325.
Proof.
  pose proof (PI_2_3_7_ineq 8) as [L U].
  assert (F : forall n, tg_alt PI_2_3_7_tg n = (if Nat.even n then 1 else -1) * (2 * / IZR (3 ^ Z.of_nat (2 * n + 1) * Z.of_nat (2 * n + 1)) + / IZR (7 ^ Z.of_nat (2 * n + 1) * Z.of_nat (2 * n + 1)))).
  { intros n. unfold tg_alt, PI_2_3_7_tg, Ratan_seq. rewrite !mult_IZR, <- !pow_IZR, !pow_inv, INR_IZR_INZ. unfold Rdiv. rewrite !Rinv_mult.
    replace ((-1) ^ n) with (if Nat.even n then 1 else -1); [reflexivity|]. clear. induction n as [|n IH]; [reflexivity|]. rewrite Nat.even_succ, <- Nat.negb_even. cbn [pow]. rewrite <- IH. destruct (Nat.even n); cbn; ring. }
  change (2 * 8)%nat with 16%nat in L, U. cbn [sum_f_R0] in L, U. rewrite !F in L. rewrite !F in U. clear F. cbn [Nat.even] in L, U.
  repeat match type of U with context [IZR (?z ^ Z.of_nat ?e * ?f)] => let v := eval vm_compute in (z ^ Z.of_nat e * f)%Z in change (IZR (z ^ Z.of_nat e * f)) with (IZR v) in U end.
  repeat match type of L with context [IZR (?z ^ Z.of_nat ?e * ?f)] => let v := eval vm_compute in (z ^ Z.of_nat e * f)%Z in change (IZR (z ^ Z.of_nat e * f)) with (IZR v) in L end.
  split; lra.
Qed.
