(** The normaliser of morlet_1d for the frequential wavelets of TimeFrequencyScattering, of both spins: a quarter
    of the sampling frequency away from zero the response is positive. *)
From Coq Require Import String Reals ZArith QArith Qpower Qround Qminmax List Bool Lia Lra Psatz.
From Coq Require Lqa.
From Coquelicot Require Import Complex.
From Verif Require Import Base BaseProofs NdArray Backend Core1d Utils1d Utils1dProofs Frontend1d ComplexOps FilterBank1d
  FilterBank1dProofs Factory1d FactoryProofs Construct1d Shape1d PropFilters1d PropShapes1d Dft Conv1d Rows1d Value1d Tabulated1d
  PropNumerics1d Invariance1d Norm1d PropFilterShape1d Normal1d JtfsFront JtfsConstruct JtfsRun.
Import ListNotations.
Local Open Scope R_scope.

(** The ratio of the Gabor term to the low-pass term at frequency 0, less one, is at most s / 12. *)
Lemma zero_ratio c s : 24 <= c -> 0 < s <= c -> exp (- c) * (exp s + exp (- s) - 2) <= s / 12.
Proof.
  intros Hc Hs. assert (E0 : exp (- s) <= 1). { rewrite <- exp_0. apply exp_le. lra. }
  assert (P : 0 < exp (- c)) by apply exp_pos.
  apply Rle_trans with (exp (- c) * (exp s - 1)); [apply Rmult_le_compat_l; lra|].
  destruct (Rle_lt_dec s (c / 2)) as [L|L].
  - assert (A : exp s - 1 <= s * exp s).
    { pose proof (exp_ge1 (- s)) as I. pose proof (exp_pos s). assert (exp (- s) * exp s = 1) by (rewrite <- exp_plus, <- exp_0; f_equal; lra). nra. }
    apply Rle_trans with (exp (- c) * (s * exp s)); [apply Rmult_le_compat_l; lra|].
    replace (exp (- c) * (s * exp s)) with (s * exp (s - c)) by (unfold Rminus; rewrite exp_plus; ring).
    assert (B : exp (s - c) <= exp (- (12))) by (apply exp_le; lra).
    assert (D : exp (- (12)) <= / 12). { rewrite exp_Ropp. apply Rinv_le_contravar; [lra|]. pose proof (exp_ge1 12). lra. }
    unfold Rdiv. apply Rmult_le_compat_l; lra.
  - assert (exp (- c) * exp s <= 1). { rewrite <- exp_plus, <- exp_0. apply exp_le. lra. } lra.
Qed.
(** The first-order bound: three points [p0], [p1], [p2] weighted by a Gaussian, with a mean above 1/12. *)
Lemma tilt c s p0 p1 p2 a0 a1 a2 : 24 <= c -> 0 < s <= c -> 0 < a0 -> 0 < a1 -> 0 < a2 ->
  (a0 + a1 + a2) / 12 < a0 * p0 + a1 * p1 + a2 * p2 ->
  (1 + exp (- c) * (exp s + exp (- s))) / (1 + 2 * exp (- c)) * (a0 + a1 + a2) < a0 * exp (s * p0) + a1 * exp (s * p1) + a2 * exp (s * p2).
Proof.
  intros Hc Hs H0 H1 H2 Hm. pose proof (zero_ratio c s Hc Hs) as Z. pose proof (exp_pos (- c)) as P.
  pose proof (exp_ge1 (s * p0)) as E0. pose proof (exp_ge1 (s * p1)) as E1. pose proof (exp_ge1 (s * p2)) as E2.
  apply Rlt_le_trans with (a0 * (1 + s * p0) + a1 * (1 + s * p1) + a2 * (1 + s * p2)).
  2:{ apply Rplus_le_compat; [apply Rplus_le_compat|]; apply Rmult_le_compat_l; lra. }
  assert (R : (1 + exp (- c) * (exp s + exp (- s))) / (1 + 2 * exp (- c)) <= 1 + s / 12).
  { apply Rmult_le_reg_r with (1 + 2 * exp (- c)); [lra|]. unfold Rdiv at 1. rewrite Rmult_assoc, Rinv_l, Rmult_1_r by lra. nra. }
  apply Rle_lt_trans with ((1 + s / 12) * (a0 + a1 + a2)); [apply Rmult_le_compat_r; lra|]. nra.
Qed.

Section Quarter.
Variables (N : nat) (sigma x : R).
Hypothesis HN : (8 <= N)%nat.
Hypothesis Hs : 0 < sigma <= 1 / 7.
Hypothesis Hx : 0 < x < 1 / 2.
Let c := / (2 * sigma ^ 2).
Let w := INR (N / 4) / INR N.

Lemma q_c : 24 <= c.
Proof.
  assert (S2 : 0 < sigma ^ 2 <= 1 / 49). { split; [apply pow_lt; lra|]. replace (1 / 49) with ((1 / 7) ^ 2) by lra. apply pow_incr. lra. }
  unfold c. apply Rmult_le_reg_r with (2 * sigma ^ 2); [lra|]. rewrite Rinv_l by lra. lra.
Qed.
Lemma q_w : 2 / 11 <= w <= 1 / 4.
Proof.
  assert (NP : 0 < INR N) by (apply lt_0_INR; lia).
  assert (A : (4 * (N / 4) <= N)%nat) by (apply Nat.mul_div_le; discriminate).
  assert (B : (2 * N <= 11 * (N / 4))%nat).
  { pose proof (Nat.div_mod N 4 ltac:(discriminate)) as D. pose proof (Nat.mod_upper_bound N 4 ltac:(discriminate)). lia. }
  apply le_INR in A. apply le_INR in B. rewrite !mult_INR in A. rewrite (mult_INR 2), (mult_INR 11) in B. cbn [INR] in A, B. unfold w. split.
  - apply Rmult_le_reg_r with (INR N); [lra|]. replace (INR (N / 4) / INR N * INR N) with (INR (N / 4)) by (field; lra). lra.
  - apply Rmult_le_reg_r with (INR N); [lra|]. replace (INR (N / 4) / INR N * INR N) with (INR (N / 4)) by (field; lra). lra.
Qed.
Lemma q_exp z a : - (z ^ 2) * c = a -> exp (- (z ^ 2) / (2 * sigma ^ 2)) = exp a.
Proof. intros <-. reflexivity. Qed.
Lemma q_split z : exp (- ((z - x) ^ 2) / (2 * sigma ^ 2)) = exp (- (c * x ^ 2)) * (exp (- (c * z ^ 2)) * exp (2 * c * x * z)).
Proof. rewrite (q_exp (z - x) (- (c * x ^ 2) + (- (c * z ^ 2) + 2 * c * x * z))) by ring. now rewrite !exp_plus. Qed.
Lemma q_r : 0 < exp (- (c / 2)) <= / 13.
Proof. split; [apply exp_pos|]. rewrite exp_Ropp. apply Rinv_le_contravar; [lra|]. pose proof (exp_ge1 (c / 2)). pose proof q_c. lra. Qed.
Lemma q_far z : 1 / 2 <= z ^ 2 - w ^ 2 -> exp (- (c * z ^ 2)) <= exp (- (c * w ^ 2)) * / 13.
Proof.
  intros Hz. pose proof q_c. pose proof q_r. apply Rle_trans with (exp (- (c * w ^ 2)) * exp (- (c / 2))).
  - rewrite <- exp_plus. apply exp_le. nra.
  - apply Rmult_le_compat_l; [left; apply exp_pos|lra].
Qed.
Lemma q_farther z : 1 <= z ^ 2 - w ^ 2 -> exp (- (c * z ^ 2)) <= exp (- (c * w ^ 2)) * / 169.
Proof.
  intros Hz. pose proof q_c. pose proof q_r. apply Rle_trans with (exp (- (c * w ^ 2)) * (exp (- (c / 2)) * exp (- (c / 2)))).
  - rewrite <- !exp_plus. apply exp_le. nra.
  - apply Rmult_le_compat_l; [left; apply exp_pos|nra].
Qed.

Lemma quarter_pos : 0 < morlet_raw N (Some x) sigma (N / 4).
Proof.
  rewrite raw_band by (lia || lra). pose proof (K_pos N sigma ltac:(lia) (proj1 Hs)) as KP. apply Rdiv_lt_0_compat; [|exact KP].
  pose proof q_c as Hc. pose proof q_w as Hw.
  rewrite !G_three by (lia || lra). fold w. replace (INR 0 / INR N) with 0 by (cbn [INR]; unfold Rdiv; ring).
  rewrite !q_split.
  rewrite (q_exp (0 - 1 - 0) (- c)) by ring. rewrite (q_exp (0 - 0) 0) by ring. rewrite (q_exp (0 + 1 - 0) (- c)) by ring.
  rewrite (q_exp (w - 1 - 0) (- (c * (w - 1) ^ 2))) by ring. rewrite (q_exp (w - 0) (- (c * w ^ 2))) by ring.
  rewrite (q_exp (w + 1 - 0) (- (c * (w + 1) ^ 2))) by ring.
  replace (- (c * (0 - 1) ^ 2)) with (- c) by ring. replace (- (c * 0 ^ 2)) with 0 by ring. replace (- (c * (0 + 1) ^ 2)) with (- c) by ring.
  replace (2 * c * x * (0 - 1)) with (- (2 * c * x)) by ring. replace (2 * c * x * 0) with 0 by ring. replace (2 * c * x * (0 + 1)) with (2 * c * x) by ring.
  rewrite exp_0.
  assert (B : (exp (- (c * (w - 1) ^ 2)) + exp (- (c * w ^ 2)) + exp (- (c * (w + 1) ^ 2))) / 12 <
    exp (- (c * (w - 1) ^ 2)) * (w - 1) + exp (- (c * w ^ 2)) * w + exp (- (c * (w + 1) ^ 2)) * (w + 1)).
  { pose proof (q_far (w - 1) ltac:(nra)) as A1. pose proof (exp_pos (- (c * w ^ 2))). pose proof (exp_pos (- (c * (w + 1) ^ 2))).
    pose proof (exp_pos (- (c * (w - 1) ^ 2))). nra. }
  pose proof (tilt c (2 * c * x) (w - 1) w (w + 1) _ _ _ Hc ltac:(nra) (exp_pos (- (c * (w - 1) ^ 2))) (exp_pos (- (c * w ^ 2))) (exp_pos (- (c * (w + 1) ^ 2))) B) as T.
  pose proof (exp_pos (- (c * x ^ 2))) as KP2. pose proof (exp_pos (- c)).
  apply (Rmult_lt_compat_l _ _ _ KP2) in T. apply Rlt_Rminus in T. eapply Rlt_le_trans; [exact T|]. right. field. lra.
Qed.
Lemma quarter_neg : 0 < morlet_raw N (Some (- x)) sigma (N - N / 4).
Proof.
  rewrite raw_band by (lia || lra). pose proof (K_pos N sigma ltac:(lia) (proj1 Hs)) as KP. apply Rdiv_lt_0_compat; [|exact KP].
  pose proof q_c as Hc. pose proof q_w as Hw.
  rewrite !G_three by (lia || lra). replace (INR 0 / INR N) with 0 by (cbn [INR]; unfold Rdiv; ring).
  assert (Ew : INR (N - N / 4) / INR N = 1 - w).
  { assert (0 < INR N) by (apply lt_0_INR; lia). assert (N / 4 <= N)%nat by (apply Nat.div_le_upper_bound; lia). rewrite minus_INR by assumption. unfold w. field. lra. }
  rewrite Ew.
  assert (M : forall z, exp (- ((z - - x) ^ 2) / (2 * sigma ^ 2)) = exp (- (((- z) - x) ^ 2) / (2 * sigma ^ 2))) by (intros z; f_equal; f_equal; ring).
  rewrite !M, !q_split.
  rewrite (q_exp (0 - 1 - 0) (- c)) by ring. rewrite (q_exp (0 - 0) 0) by ring. rewrite (q_exp (0 + 1 - 0) (- c)) by ring.
  rewrite (q_exp (1 - w - 1 - 0) (- (c * w ^ 2))) by ring. rewrite (q_exp (1 - w - 0) (- (c * (w - 1) ^ 2))) by ring.
  rewrite (q_exp (1 - w + 1 - 0) (- (c * (w - 2) ^ 2))) by ring.
  replace (- (c * (- (0 - 1)) ^ 2)) with (- c) by ring. replace (- (c * (- 0) ^ 2)) with 0 by ring. replace (- (c * (- (0 + 1)) ^ 2)) with (- c) by ring.
  replace (- (1 - w - 1)) with w by ring. replace (- (1 - w)) with (w - 1) by ring. replace (- (1 - w + 1)) with (w - 2) by ring.
  replace (2 * c * x * - (0 - 1)) with (2 * c * x) by ring. replace (2 * c * x * - 0) with 0 by ring. replace (2 * c * x * - (0 + 1)) with (- (2 * c * x)) by ring.
  rewrite exp_0.
  assert (B : (exp (- (c * w ^ 2)) + exp (- (c * (w - 1) ^ 2)) + exp (- (c * (w - 2) ^ 2))) / 12 <
    exp (- (c * w ^ 2)) * w + exp (- (c * (w - 1) ^ 2)) * (w - 1) + exp (- (c * (w - 2) ^ 2)) * (w - 2)).
  { pose proof (q_far (w - 1) ltac:(nra)) as A1. pose proof (q_farther (w - 2) ltac:(nra)) as A2. pose proof (exp_pos (- (c * w ^ 2))).
    pose proof (exp_pos (- (c * (w - 2) ^ 2))). pose proof (exp_pos (- (c * (w - 1) ^ 2))). nra. }
  pose proof (tilt c (2 * c * x) w (w - 1) (w - 2) _ _ _ Hc ltac:(nra) (exp_pos (- (c * w ^ 2))) (exp_pos (- (c * (w - 1) ^ 2))) (exp_pos (- (c * (w - 2) ^ 2))) B) as T.
  pose proof (exp_pos (- (c * x ^ 2))) as KP2. pose proof (exp_pos (- c)).
  apply (Rmult_lt_compat_l _ _ _ KP2) in T. apply Rlt_Rminus in T. eapply Rlt_le_trans; [exact T|]. right. field. lra.
Qed.
End Quarter.

(** At least eight frequency bins. *)
Lemma bins_ge8 n J F : (0 <= n)%Z -> (0 <= J)%Z -> (1 <= F)%Q -> (0 < N_padded_fr_of n J F)%Z -> (8 <= N_padded_fr_of n J F)%Z.
Proof.
  intros Hn HJ HF. unfold N_padded_fr_of. rewrite Z.max_l by exact HJ. set (K := (2 ^ J)%Z). intros Hp.
  assert (HK : (0 < K)%Z) by (apply Z.pow_pos_nonneg; lia).
  destruct (Z_le_gt_dec 4 J) as [L|L].
  - assert (16 <= K)%Z by (change 16%Z with (2 ^ 4)%Z; apply Z.pow_le_mono_r; lia).
    set (fl := Qfloor _) in *. assert (1 <= fl)%Z by (apply Z.lt_pred_le, (Z.mul_lt_mono_pos_r K); lia).
    apply Z.le_trans with (1 * K)%Z; [lia|apply Z.mul_le_mono_nonneg_r; lia].
  - assert (E8 : (8 = 8 / K * K)%Z). { assert (J = 0 \/ J = 1 \/ J = 2 \/ J = 3)%Z as D by lia. unfold K. destruct D as [->|[->|[->| ->]]]; reflexivity. }
    apply Z.le_trans with (8 / K * K)%Z; [lia|]. apply Z.mul_le_mono_nonneg_r; [lia|]. apply Z.le_trans with (Qfloor (inject_Z (8 / K))); [rewrite Qfloor_Z; lia|]. apply Qfloor_resp_le.
    assert (HKQ : (0 < inject_Z K)%Q) by (unfold Qlt; cbn; lia).
    apply Qle_shift_div_l; [exact HKQ|]. rewrite <- inject_Z_mult, <- E8.
    assert (EK : (1 <= Qpower 2 J)%Q). { change 2%Q with (inject_Z 2). rewrite <- Zpower_Qpower by exact HJ. change 1%Q with (inject_Z 1). rewrite <- Zle_Qle. fold K. lia. }
    assert (M : (1 <= Qmin F (2 ^ J))%Q) by (apply Q.min_glb; assumption).
    assert (N0 : (0 <= inject_Z n)%Q) by (change 0%Q with (inject_Z 0); rewrite <- Zle_Qle; exact Hn).
    change (inject_Z 8) with 8%Q. set (m := Qmin _ _) in *. set (z := inject_Z n) in *. clearbody m z. Lqa.lra.
Qed.
