(** Property C104: the exponents computed through the double-precision logarithm. *)
From Coq Require Import Reals ZArith QArith Qreals Lia Lra Psatz.
From Flocq Require Import Core.
From Verif Require Import Base Utils1d FilterBank1d Float1d.
Local Open Scope Z_scope.

Lemma floor_log2 f n : faithful_log2 f -> 1 <= n <= 2 ^ 45 -> Zfloor (f (IZR n)) = Z.log2 n.
Proof. intros Hf Hn. apply Zfloor_imp. now apply float_log2. Qed.
Lemma ceil_log2 f n : faithful_log2 f -> 1 <= n <= 2 ^ 45 -> Zceil (f (IZR n)) = Z.log2_up n.
Proof.
  intros Hf Hn. destruct (float_log2 f Hf n Hn) as [[L1 L2] L3]. pose proof (Z.log2_spec n ltac:(lia)) as [S1 S2].
  pose proof (Z.log2_nonneg n) as L0.
  destruct (Z.eq_dec (2 ^ Z.log2 n) n) as [E|E].
  - rewrite <- E at 2. rewrite Z.log2_up_pow2 by lia. apply Zceil_imp. split; [eapply Rlt_le_trans; [|exact L1]; apply IZR_lt; lia|].
    apply float_le; [exact Hf|apply double_int; lia| |apply IZR_lt; lia|].
    + assert (Z.log2 n <= 45) by (rewrite <- (Z.log2_pow2 45) by lia; apply Z.log2_le_mono; lia). lia.
    + rewrite bpow_2 by lia. rewrite E. right. reflexivity.
  - specialize (L3 ltac:(lia)).
    assert (U : Z.log2_up n = Z.log2 n + 1).
    { apply Z.log2_up_unique; [lia|]. replace (Z.pred (Z.log2 n + 1)) with (Z.log2 n) by lia. rewrite <- Z.add_1_r in S2. lia. }
    rewrite U. apply Zceil_imp. replace (Z.log2 n + 1 - 1) with (Z.log2 n) by lia. lra.
Qed.

(** The padded length is the one computed exactly: the least power of two that holds the signal and its margins, capped by
    the greatest power of two that reflection padding can fill. *)
Theorem C104_padding : forall f N m, faithful_log2 f -> 1 <= N -> 0 <= m -> N + 2 * m <= 2 ^ 45 -> 3 * N - 2 <= 2 ^ 45 ->
  J_pad_float f N m = J_pad_of N m /\
  exists a b, J_pad_float f N m = Z.min a b /\
    0 <= a /\ N + 2 * m <= 2 ^ a /\ (forall e, 0 <= e < a -> 2 ^ e < N + 2 * m) /\
    0 <= b /\ 2 ^ b <= 3 * N - 2 < 2 ^ (b + 1).
Proof.
  intros f N m Hf HN Hm H1 H2. unfold J_pad_float. rewrite floor_log2, ceil_log2 by (try exact Hf; lia). split; [reflexivity|].
  exists (Z.log2_up (N + 2 * m)), (Z.log2 (3 * N - 2)). split; [reflexivity|]. split; [apply Z.log2_up_nonneg|].
  pose proof (Z.log2_spec (3 * N - 2) ltac:(lia)) as S. pose proof (Z.log2_nonneg (3 * N - 2)). rewrite <- Z.add_1_r in S.
  split; [destruct (Z.eq_dec (N + 2 * m) 1) as [-> |]; [cbn; lia|]; apply Z.log2_up_spec; lia|].
  split; [|split; assumption].
  intros e He. destruct (Z.eq_dec (N + 2 * m) 1) as [E|]; [rewrite E in He; cbn in He; lia|].
  pose proof (Z.log2_up_spec (N + 2 * m) ltac:(lia)) as [U _]. eapply Z.le_lt_trans; [|exact U]. apply Z.pow_le_mono_r; lia.
Qed.
Print Assumptions C104_padding.

(** The test of the stride accepts the powers of two and nothing else, and returns their exponent. *)
Theorem C104_stride : forall f s k, faithful_log2 f -> 1 <= s <= 2 ^ 45 ->
  (log2_stride_float f s = Some k <-> 0 <= k /\ s = 2 ^ k).
Proof.
  intros f s k Hf Hs. unfold log2_stride_float. rewrite floor_log2, ceil_log2 by assumption.
  destruct (Z.eqb_spec (Z.log2 s) (Z.log2_up s)) as [E|E]; split.
  - intros [= <-]. split; [apply Z.log2_nonneg|]. pose proof (Z.log2_spec s ltac:(lia)) as [S1 S2].
    destruct (Z.eq_dec s 1) as [-> |]; [reflexivity|]. pose proof (Z.log2_up_spec s ltac:(lia)) as [_ U]. rewrite <- E in U. lia.
  - intros [Hk ->]. now rewrite Z.log2_pow2.
  - discriminate.
  - intros [Hk ->]. rewrite Z.log2_pow2, Z.log2_up_pow2 in E by lia. lia.
Qed.
Print Assumptions C104_stride.

(** floor(log2 T) is exact when T is an integer, or when it is not within a factor 1 - 2^-46 of the next power of two;
    in any case it exceeds the exact value by at most 1. *)
Theorem C104_log2_T_partial : forall f T e, faithful_log2 f -> double T -> 0 <= e < 45 -> (IZR (2 ^ e) <= T < IZR (2 ^ (e + 1)))%R ->
  ((exists n, T = IZR n) \/ (T <= IZR (2 ^ (e + 1)) * (1 - 1 / 2 ^ 46))%R -> log2_T_float f T = e) /\
  e <= log2_T_float f T <= e + 1.
Proof.
  intros f T e Hf HT He [H1 H2].
  assert (P0 : (0 < IZR (2 ^ e))%R) by (apply IZR_lt; apply Z.pow_pos_nonneg; lia).
  assert (G : (IZR e <= f T)%R) by (apply float_ge; [exact Hf|exact HT|lia|rewrite bpow_2 by lia; exact H1]).
  assert (L : (f T <= IZR (e + 1))%R) by (apply float_le; [exact Hf|exact HT|lia|lra|rewrite bpow_2 by lia; lra]).
  split.
  - intros [[n ->]|H].
    + unfold log2_T_float. apply le_IZR in H1. apply lt_IZR in H2.
      assert (n <= 2 ^ 45) by (assert (2 ^ (e + 1) <= 2 ^ 45) by (apply Z.pow_le_mono_r; lia); lia).
      rewrite floor_log2; [apply Z.log2_unique; [lia|rewrite <- Z.add_1_r; lia]|exact Hf|].
      pose proof (Z.pow_pos_nonneg 2 e). lia.
    + apply Zfloor_imp. split; [exact G|]. apply (float_lt f Hf T (e + 1) (1 / 2 ^ 46)); [exact HT|lia|lra| |rewrite bpow_2 by lia; exact H].
      split; [lra|]. apply Rmult_lt_reg_r with (2 ^ 46)%R; [apply pow_lt; lra|]. unfold Rdiv. rewrite Rmult_assoc, Rinv_l by (apply pow_nonzero; lra).
      rewrite ?Rmult_1_l, ?Rmult_1_r. apply Rlt_pow_R1; [lra|lia].
  - unfold log2_T_float. split.
    + apply Zfloor_lub. exact G.
    + apply le_IZR. eapply Rle_trans; [apply Zfloor_lb|exact L].
Qed.
Print Assumptions C104_log2_T_partial.

(** Rounding to nearest: the logarithm of a number close to 2^-9 or 2^9 is -9 or 9. *)
Lemma nearest_nine c y d : (0 <= d < / 2 ^ 50)%R -> (y = 9 - d \/ y = - 9 + d)%R ->
  round radix2 double_exp (Znearest c) y = (if Rlt_dec 0 y then 9 else -9)%R.
Proof.
  intros Hd Hy. assert (Hb : (/ 2 ^ 50 < 1)%R) by (rewrite <- Rinv_1; apply Rinv_lt_contravar; [rewrite Rmult_1_l; apply pow_lt; lra|apply Rlt_pow_R1; [lra|lia]]).
  assert (M : mag radix2 y = 4 :> Z).
  { apply mag_unique. change (bpow radix2 (4 - 1)) with (IZR 8). change (bpow radix2 4) with (IZR 16).
    destruct Hy as [-> | ->]; [rewrite Rabs_pos_eq by lra|rewrite Rabs_left by lra]; lra. }
  unfold round, scaled_mantissa, cexp. rewrite M. change (double_exp 4) with (-49).
  assert (E50 : (2 ^ 50 = 2 * bpow radix2 49)%R) by (cbn; lra).
  assert (B49 : (bpow radix2 (- (-49)) = bpow radix2 49)%R) by reflexivity. rewrite B49.
  assert (P49 : (0 < bpow radix2 49)%R) by apply bpow_gt_0.
  assert (I49 : (bpow radix2 (-49) * bpow radix2 49 = 1)%R) by (rewrite <- bpow_plus; reflexivity).
  assert (Hd' : (d * bpow radix2 49 < / 2)%R).
  { apply Rlt_le_trans with (/ 2 ^ 50 * bpow radix2 49)%R; [apply Rmult_lt_compat_r; lra|]. rewrite E50. right. field. lra. }
  assert (Hd0 : (0 <= d * bpow radix2 49)%R) by (apply Rmult_le_pos; lra).
  assert (Z49 : IZR (2 ^ 49) = bpow radix2 49) by (symmetry; apply bpow_2; lia).
  destruct Hy as [-> | ->].
  - rewrite (Znearest_imp c _ (9 * 2 ^ 49)).
    + unfold F2R. cbn [Fnum Fexp]. rewrite mult_IZR, Z49. destruct (Rlt_dec 0 (9 - d)); [|lra].
      rewrite Rmult_assoc, (Rmult_comm (bpow radix2 49)), I49. ring.
    + rewrite mult_IZR, Z49. replace ((9 - d) * bpow radix2 49 - 9 * bpow radix2 49)%R with (- (d * bpow radix2 49))%R by ring.
      rewrite Rabs_Ropp, Rabs_pos_eq; lra.
  - rewrite (Znearest_imp c _ (-9 * 2 ^ 49)).
    + unfold F2R. cbn [Fnum Fexp]. rewrite mult_IZR, Z49. destruct (Rlt_dec 0 (-9 + d)); [lra|].
      rewrite Rmult_assoc, (Rmult_comm (bpow radix2 49)), I49. ring.
    + rewrite mult_IZR, Z49. replace ((-9 + d) * bpow radix2 49 - -9 * bpow radix2 49)%R with (d * bpow radix2 49)%R by ring.
      rewrite Rabs_pos_eq; lra.
Qed.
Lemma tiny : (0 < / 2 ^ 52)%R /\ (4 * / 2 ^ 52 = / 2 ^ 50)%R /\ (/ 2 ^ 52 < 1 / 2)%R.
Proof.
  split; [apply Rinv_0_lt_compat, pow_lt; lra|]. split; [cbn; field|].
  unfold Rdiv. rewrite Rmult_1_l. apply Rinv_lt_contravar; [apply Rmult_lt_0_compat; [lra|apply pow_lt; lra]|]. rewrite <- (pow_1 2) at 1. apply Rlt_pow; [lra|lia].
Qed.

(** A value of T below 512 whose rounded logarithm is 9. *)
Theorem C104_log2_T_refuted : forall c, exists T, double T /\ (IZR (2 ^ 8) <= T < IZR (2 ^ 9))%R /\
  log2_T_float (fun x => round radix2 double_exp (Znearest c) (log2 x)) T = 9.
Proof.
  intros c. destruct tiny as (T1 & T2 & T3). exists (512 * (1 - / 2 ^ 53))%R.
  assert (E53 : (/ 2 ^ 53 = / 2 ^ 52 / 2)%R) by (cbn; field). split; [|split].
  - apply generic_format_FLT. apply (FLT_spec _ _ _ _ (Float radix2 (2 ^ 53 - 1) (-44))); [|cbn; lia|cbn; lia].
    unfold F2R. cbn [Fnum Fexp]. rewrite minus_IZR. unfold bpow. cbn [radix_val radix2 Z.pow_pos Pos.iter]. cbn. field.
  - rewrite E53. cbn [Z.pow Z.pow_pos Pos.iter]. cbn. lra.
  - unfold log2_T_float. pose proof ln2_range as L2.
    assert (E : log2 (512 * (1 - / 2 ^ 53)) = (9 + log2 (1 - / 2 ^ 53))%R).
    { rewrite log2_mult by lra. f_equal. change 512%R with (bpow radix2 9). apply log2_power. }
    pose proof (log2_below (/ 2 ^ 53) ltac:(lra)) as U.
    assert (V : (- / 2 ^ 50 < log2 (1 - / 2 ^ 53))%R).
    { (* ln (1 - d) >= - d / (1 - d) *)
      unfold log2. apply Rmult_lt_reg_r with (ln 2); [lra|]. unfold Rdiv. rewrite Rmult_assoc, Rinv_l, Rmult_1_r by lra.
      set (d := (/ 2 ^ 53)%R) in *. assert (Hd : (0 < d < 1 / 4)%R) by lra.
      assert (Ed : (/ 2 ^ 50 = 8 * d)%R) by (unfold d; cbn; field). rewrite Ed.
      assert (W : (- (d / (1 - d)) <= ln (1 - d))%R).
      { replace (ln (1 - d)) with (- ln (/ (1 - d)))%R by (rewrite ln_Rinv by lra; ring). apply Ropp_le_contravar.
        replace (/ (1 - d))%R with (1 + d / (1 - d))%R by (field; lra).
        rewrite <- (ln_exp (d / (1 - d))) at 2. assert (0 < d / (1 - d))%R by (apply Rdiv_lt_0_compat; lra).
        left. apply ln_increasing; [lra|]. apply exp_ineq1. lra. }
      assert (X : (d / (1 - d) <= 2 * d)%R).
      { apply Rmult_le_reg_r with (1 - d)%R; [lra|]. unfold Rdiv. rewrite Rmult_assoc, Rinv_l by lra. nra. }
      nra. }
    rewrite E. rewrite (nearest_nine c _ (- log2 (1 - / 2 ^ 53))); [|lra|left; ring].
    destruct (Rlt_dec 0 _) as [_|n]; [apply (Zfloor_IZR 9)|]. exfalso. apply n. lra.
Qed.
Print Assumptions C104_log2_T_refuted.

(** The subsampling of a filter of upper frequency [u] is alias-free up to a relative error of 2^-45, and it is maximal. *)
Theorem C104_subsampling_partial : forall f u, faithful_log2 f -> double u -> (bpow radix2 (-60) <= u <= 1 / 2)%R ->
  let j := subsampling_float f u in
  0 <= j /\ (u < bpow radix2 (- (j + 1)) * (1 + 1 / 2 ^ 45))%R /\ (bpow radix2 (- (j + 2)) < u)%R.
Proof.
  intros f u Hf Hu [H1 H2]. cbv zeta. unfold subsampling_float. set (m := Zfloor (- f u)).
  assert (P : (0 < bpow radix2 (-60))%R) by apply bpow_gt_0.
  pose proof (Zfloor_lb (- f u)) as F1. pose proof (Zfloor_ub (- f u)) as F2. fold m in F1, F2.
  assert (G1 : (f u <= IZR (-1))%R) by (apply float_le; [exact Hf|exact Hu|lia|lra|cbn; lra]).
  assert (G2 : (IZR (-60) <= f u)%R) by (apply float_ge; [exact Hf|exact Hu|lia|exact H1]).
  assert (M1 : 1 <= m) by (apply Zfloor_lub; cbn in *; lra).
  assert (M2 : m <= 60) by (apply le_IZR; lra).
  split; [lia|]. replace (m - 1 + 1) with m by lia. replace (m - 1 + 2) with (m + 1) by lia. split.
  - apply Rnot_le_lt. intros H. apply (float_gt f Hf u (- m) (1 / 2 ^ 45)) in H; [|exact Hu|lia|].
    + rewrite opp_IZR in H. lra.
    + split; [lra|]. apply Rmult_le_reg_r with (2 ^ 45)%R; [apply pow_lt; lra|]. unfold Rdiv. rewrite Rmult_assoc, Rinv_l by (apply pow_nonzero; lra).
      rewrite ?Rmult_1_l, ?Rmult_1_r. apply pow_R1_Rle. lra.
  - apply Rnot_le_lt. intros H. apply (float_le f Hf u (- (m + 1))) in H; [|exact Hu|lia|lra].
    rewrite opp_IZR, plus_IZR in H. lra.
Qed.
Print Assumptions C104_subsampling_partial.

(** An upper frequency just above 2^-9 for which the subsampling 2^8 is accepted: the bound of the docstring does not hold. *)
Theorem C104_subsampling_refuted : forall c, exists u, double u /\ (0 < u <= 1 / 2)%R /\
  let j := subsampling_float (fun x => round radix2 double_exp (Znearest c) (log2 x)) u in
  (bpow radix2 (- (j + 1)) < u)%R.
Proof.
  intros c. destruct tiny as (T1 & T2 & T3). pose proof ln2_range as L2. exists (bpow radix2 (-9) * (1 + / 2 ^ 52))%R.
  assert (B9 : (bpow radix2 (-9) = 1 / 512)%R) by (cbn; lra). split; [|split].
  - apply generic_format_FLT. apply (FLT_spec _ _ _ _ (Float radix2 (2 ^ 52 + 1) (-61))); [|cbn; lia|cbn; lia].
    unfold F2R. cbn [Fnum Fexp]. rewrite plus_IZR. unfold bpow. cbn [radix_val radix2 Z.pow_pos Pos.iter]. cbn. field.
  - rewrite B9. lra.
  - cbv zeta. unfold subsampling_float.
    assert (E : log2 (bpow radix2 (-9) * (1 + / 2 ^ 52)) = (-9 + log2 (1 + / 2 ^ 52))%R).
    { rewrite log2_mult by (try apply bpow_gt_0; lra). f_equal. apply log2_power. }
    pose proof (log2_above (/ 2 ^ 52) ltac:(lra)) as U.
    assert (V : (log2 (1 + / 2 ^ 52) < / 2 ^ 50)%R).
    { unfold log2. apply Rmult_lt_reg_r with (ln 2); [lra|]. unfold Rdiv. rewrite Rmult_assoc, Rinv_l, Rmult_1_r by lra.
      assert (ln (1 + / 2 ^ 52) < / 2 ^ 52)%R by (rewrite <- (ln_exp (/ 2 ^ 52)) at 2; apply ln_increasing; [lra|apply exp_ineq1; lra]). nra. }
    rewrite E. rewrite (nearest_nine c _ (log2 (1 + / 2 ^ 52))); [|lra|right; ring].
    destruct (Rlt_dec 0 _) as [p|_]; [exfalso; lra|].
    replace (Zfloor (- -9)) with 9 by (symmetry; replace (- -9)%R with 9%R by ring; apply (Zfloor_IZR 9)).
    change (- (9 - 1 + 1)) with (-9). rewrite B9. lra.
Qed.
Print Assumptions C104_subsampling_refuted.

(** The logarithm rounded to nearest, ties to even: a signal of length 1000 with a margin of 300, a stride of 64. *)
Example C104_instance :
  let f := fun x => round radix2 double_exp ZnearestE (log2 x) in
  faithful_log2 f /\ J_pad_float f 1000 300 = 11 /\ log2_stride_float f 64 = Some 6 /\ log2_stride_float f 65 = None /\
  log2_T_float f (IZR 511) = 8.
Proof.
  cbv zeta. set (f := fun x => round radix2 double_exp ZnearestE (log2 x)). assert (Hf : faithful_log2 f) by apply nearest_faithful.
  split; [exact Hf|]. split; [|split; [|split]].
  - destruct (C104_padding f 1000 300 Hf ltac:(lia) ltac:(lia) ltac:(lia) ltac:(lia)) as [-> _]. reflexivity.
  - apply C104_stride; [exact Hf|lia|]. split; [lia|reflexivity].
  - destruct (log2_stride_float f 65) as [k|] eqn:E; [|reflexivity]. apply C104_stride in E; [|exact Hf|lia]. destruct E as [Hk E].
    assert (k <= 6 \/ 7 <= k) as [H|H] by lia.
    + assert (2 ^ k <= 2 ^ 6) by (apply Z.pow_le_mono_r; lia). lia.
    + assert (2 ^ 7 <= 2 ^ k) by (apply Z.pow_le_mono_r; lia). lia.
  - apply (C104_log2_T_partial f (IZR 511) 8 Hf); [apply double_int; lia|lia|split; [apply IZR_le|apply IZR_lt]; lia|]. left. now exists 511.
Qed.
