(** C114: the double factorial of the normalisation of the solid harmonics of even degree. *)
From Coq Require Import Reals ZArith List Bool Arith Lia Lra.
From Verif Require Import FilterBank3d Factorial64 PropNorm3d GaussIntegral.
Import ListNotations.
Local Open Scope Z_scope.

Lemma wrap_mod z : wrap64 z mod 2 ^ 64 = z mod 2 ^ 64.
Proof. unfold wrap64. rewrite Zminus_mod_idemp_l. f_equal. lia. Qed.
Lemma wrap_range z : - 2 ^ 63 <= wrap64 z < 2 ^ 63.
Proof. unfold wrap64. pose proof (Z.mod_pos_bound (z + 2 ^ 63) (2 ^ 64) eq_refl). lia. Qed.
Lemma wrap_cong a b : a mod 2 ^ 64 = b mod 2 ^ 64 -> wrap64 a = wrap64 b.
Proof. intros H. unfold wrap64. f_equal. rewrite <- (Zplus_mod_idemp_l a), H, Zplus_mod_idemp_l. reflexivity. Qed.
Lemma wrap_id z : - 2 ^ 63 <= z < 2 ^ 63 -> wrap64 z = z.
Proof. intros H. unfold wrap64. rewrite Z.mod_small by lia. lia. Qed.
Lemma prod64_acc l : forall a, fold_left (fun a b => wrap64 (a * b)) l (wrap64 a) = wrap64 (fold_left Z.mul l a).
Proof.
  induction l as [|b l IH]; intros a; cbn [fold_left]; [reflexivity|].
  replace (wrap64 (wrap64 a * b)) with (wrap64 (a * b)); [apply IH|]. apply wrap_cong. now rewrite <- (Z.mul_mod_idemp_l (wrap64 a)), wrap_mod, Z.mul_mod_idemp_l by easy.
Qed.
Lemma mul_acc l : forall a, fold_left Z.mul l a = a * fold_left Z.mul l 1.
Proof. induction l as [|b l IH]; intros a; cbn [fold_left]; [lia|]. rewrite (IH (a * b)), (IH (1 * b)). lia. Qed.
Lemma arange_SS n : arange_down2 (Z.of_nat (S (S n))) = Z.of_nat (S (S n)) :: arange_down2 (Z.of_nat n).
Proof.
  unfold arange_down2. replace (Z.to_nat ((Z.of_nat (S (S n)) + 1) / 2)) with (S (Z.to_nat ((Z.of_nat n + 1) / 2))).
  - cbn [seq map]. replace (Z.of_nat (S (S n)) - 2 * Z.of_nat 0) with (Z.of_nat (S (S n))) by lia. f_equal. rewrite <- seq_shift, map_map. apply map_ext. intros k. lia.
  - replace (Z.of_nat (S (S n)) + 1) with (Z.of_nat n + 1 + 1 * 2) by lia. rewrite Z.div_add by lia. pose proof (Z.div_pos (Z.of_nat n + 1) 2). lia.
Qed.
Lemma arange_prod n : fold_left Z.mul (arange_down2 (Z.of_nat n)) 1 = Z.of_nat (double_factorial n) /\
  fold_left Z.mul (arange_down2 (Z.of_nat (S n))) 1 = Z.of_nat (double_factorial (S n)).
Proof.
  induction n as [|n [IH1 IH2]]; [split; reflexivity|]. split; [exact IH2|]. rewrite arange_SS. cbn [fold_left]. rewrite mul_acc, IH1, df_SS, Nat2Z.inj_mul. lia.
Qed.
Lemma df64 n : double_factorial64 (Z.of_nat n) = wrap64 (Z.of_nat (double_factorial n)).
Proof.
  unfold double_factorial64. destruct n as [|n]; [reflexivity|]. destruct (Z.ltb_spec (Z.of_nat (S n)) 1); [lia|]. unfold prod64. change 1 with (wrap64 1) at 1.
  rewrite prod64_acc. f_equal. apply arange_prod.
Qed.
Lemma df_pos n : (1 <= double_factorial n /\ 1 <= double_factorial (S n))%nat.
Proof. induction n as [|n [A B]]; [cbn; lia|]. split; [exact B|]. rewrite df_SS. nia. Qed.
Lemma df_mono n : (double_factorial n <= double_factorial (S n) /\ double_factorial (S n) <= double_factorial (S (S n)))%nat.
Proof.
  induction n as [|n [A B]]; [cbn; lia|]. split; [exact B|]. rewrite !df_SS in *. pose proof (df_pos n). nia.
Qed.
Lemma df_le m n : (m <= n)%nat -> (double_factorial m <= double_factorial n)%nat.
Proof. induction 1 as [|n H IH]; [lia|]. pose proof (df_mono n). lia. Qed.
Lemma dfz n : Z.of_nat (double_factorial n) = fold_left Z.mul (arange_down2 (Z.of_nat n)) 1.
Proof. symmetry. apply arange_prod. Qed.
Lemma df_odd k : Z.odd (Z.of_nat (double_factorial (2 * k + 1))) = true.
Proof.
  induction k as [|k IH]; [reflexivity|]. replace (2 * S k + 1)%nat with (S (S (2 * k + 1))) by lia. rewrite df_SS, Nat2Z.inj_mul, Z.odd_mul, IH, andb_true_r.
  replace (Z.of_nat (S (S (2 * k + 1)))) with (1 + 2 * (Z.of_nat k + 1)) by lia. rewrite Z.odd_add, Z.odd_mul. reflexivity.
Qed.

(** The double factorial is right exactly up to 33; below 1 it is 1. *)
Theorem C114_double_factorial_partial : forall i : nat, double_factorial64 (Z.of_nat i) = Z.of_nat (double_factorial i) <-> (i <= 33)%nat.
Proof.
  intros i. rewrite df64. split.
  - intros E. destruct (Nat.le_gt_cases i 33) as [|H]; [assumption|exfalso]. pose proof (wrap_range (Z.of_nat (double_factorial i))) as W. rewrite E in W.
    pose proof (df_le 34 i H) as L. apply Nat2Z.inj_le in L. rewrite (dfz 34) in L.
    assert (E34 : fold_left Z.mul (arange_down2 (Z.of_nat 34)) 1 = 46620662575398912000) by reflexivity. rewrite E34 in L. change (2 ^ 63) with 9223372036854775808 in W. lia.
  - intros H. apply wrap_id. pose proof (df_le i 33 H) as L. apply Nat2Z.inj_le in L. rewrite (dfz 33) in L.
    assert (E : fold_left Z.mul (arange_down2 (Z.of_nat 33)) 1 = 6332659870762850625) by reflexivity. rewrite E in L. change (2 ^ 63) with 9223372036854775808. lia.
Qed.
Print Assumptions C114_double_factorial_partial.

Local Open Scope R_scope.
(** The even degrees up to 32 are normalised as the formula says; from 34 on the divisor has wrapped around, without vanishing,
    and the wavelets are at least 24 times too large: their mass (C93), that many times [norm_even64 l / norm_at_degree l], is not 1. *)
Theorem C114_normalisation : forall l, Nat.even l = true -> (l <= 32)%nat -> norm_even64 l = norm_at_degree l.
Proof.
  intros l He Hl. unfold norm_even64, norm_at_degree. rewrite He. replace (Z.of_nat l + 1)%Z with (Z.of_nat (l + 1)) by lia.
  rewrite (proj2 (C114_double_factorial_partial (l + 1))) by lia. now rewrite <- INR_IZR_INZ.
Qed.
Print Assumptions C114_normalisation.
Theorem C114_normalisation_refuted : forall l, Nat.even l = true -> (34 <= l)%nat ->
  double_factorial64 (Z.of_nat l + 1) <> 0%Z /\ 24 * norm_at_degree l <= Rabs (norm_even64 l) /\
  24 <= Rabs (norm_even64 l) * (4 * PI * sqrt ((2 * INR l + 1) / (4 * PI))) * moment (l + 2).
Proof.
  intros l He Hl. replace (Z.of_nat l + 1)%Z with (Z.of_nat (l + 1)) by lia.
  assert (Ho : Z.odd (double_factorial64 (Z.of_nat (l + 1))) = true).
  { apply Nat.even_spec in He as (k & ->). rewrite df64. unfold wrap64. rewrite Z.odd_sub. change (Z.odd (2 ^ 63)) with false. rewrite xorb_false_r.
    pose proof (df_odd k) as O. set (z := Z.of_nat (double_factorial (2 * k + 1))) in *.
    pose proof (Z.div_mod (z + 2 ^ 63) (2 ^ 64) ltac:(easy)) as D. replace ((z + 2 ^ 63) mod 2 ^ 64)%Z with (z + 2 * (2 ^ 62 - 2 ^ 63 * ((z + 2 ^ 63) / 2 ^ 64)))%Z by lia.
    rewrite Z.odd_add, Z.odd_mul, O. reflexivity. }
  assert (Hnz : double_factorial64 (Z.of_nat (l + 1)) <> 0%Z) by (intros E; rewrite E in Ho; discriminate).
  assert (Hr : (24 * Z.abs (double_factorial64 (Z.of_nat (l + 1))) <= Z.of_nat (double_factorial (l + 1)))%Z).
  { rewrite df64 at 1. pose proof (wrap_range (Z.of_nat (double_factorial (l + 1)))) as W. pose proof (df_le 35 (l + 1) ltac:(lia)) as L. apply Nat2Z.inj_le in L. rewrite (dfz 35) in L.
    assert (E : fold_left Z.mul (arange_down2 (Z.of_nat 35)) 1%Z = 221643095476699771875%Z) by reflexivity. rewrite E in L. change (2 ^ 63)%Z with 9223372036854775808%Z in W. lia. }
  split; [exact Hnz|].
  assert (G : 24 * norm_at_degree l <= Rabs (norm_even64 l)).
  { pose proof PI_RGT_0 as HP. pose proof (pos_INR l) as Hp. assert (H0 : 0 < sqrt (INR l + / 2)) by (apply sqrt_lt_R0; lra).
    unfold norm_even64, norm_at_degree. rewrite He. replace (Z.of_nat l + 1)%Z with (Z.of_nat (l + 1)) by lia.
    set (d := double_factorial64 (Z.of_nat (l + 1))) in *. set (t := double_factorial (l + 1)) in *. set (u := sqrt (INR l + / 2)) in *.
    assert (Hd : 1 <= IZR (Z.abs d)) by (apply IZR_le; lia).
    assert (Hc : 0 < 2 * PI * u) by (apply Rmult_lt_0_compat; lra). apply IZR_le in Hr. rewrite mult_IZR, <- INR_IZR_INZ in Hr.
    assert (Hz : IZR d <> 0) by (now apply not_0_IZR). set (c := 2 * PI * u) in *. clearbody c.
    unfold Rdiv. rewrite Rabs_mult, Rabs_R1, !Rmult_1_l, Rabs_inv, Rabs_mult, (Rabs_right c), <- abs_IZR by lra.
    rewrite !Rinv_mult. rewrite <- (Rmult_assoc 24), (Rmult_comm 24), Rmult_assoc. apply Rmult_le_compat_l; [left; now apply Rinv_0_lt_compat|].
    apply (Rmult_le_reg_r (IZR (Z.abs d))); [lra|]. rewrite Rinv_l by lra. apply (Rmult_le_reg_r (INR t)); [lra|].
    replace (24 * / INR t * IZR (Z.abs d) * INR t) with (24 * IZR (Z.abs d)) by (field; lra). lra. }
  split; [exact G|]. pose proof (norm_mass l) as M. pose proof (norm_pos l) as P.
  set (K := 4 * PI * sqrt ((2 * INR l + 1) / (4 * PI))) in *. set (m := moment (l + 2)) in *.
  assert (HKm : 0 < K * m). { apply (Rmult_lt_reg_l (norm_at_degree l)); [exact P|]. rewrite Rmult_0_r, <- Rmult_assoc, M. lra. }
  rewrite Rmult_assoc. apply Rle_trans with (24 * norm_at_degree l * (K * m)); [|apply Rmult_le_compat_r; lra]. rewrite !Rmult_assoc. rewrite Rmult_assoc in M. rewrite M. lra.
Qed.
Print Assumptions C114_normalisation_refuted.
(** Degree 34: 35!! = 221643095476699771875 is reduced to 282166592185152483. *)
Example C114_instance : double_factorial64 7 = 105%Z /\ double_factorial64 35 = 282166592185152483%Z.
Proof. split; reflexivity. Qed.
