(** The exponents that the 1-D frontends obtain by rounding a double-precision logarithm.
    The rest of the development computes these exponents exactly ([Z.log2], [Z.log2_up]); here they are computed as the code
    does, through [numpy.log2] and [math.log2]. *)
From Coq Require Import Reals ZArith QArith Qreals Lia Lra Psatz.
From Flocq Require Import Core.
From Verif Require Import Base Utils1d FilterBank1d.
Local Open Scope Z_scope.

(** ** Double precision *)
Definition double_exp : Z -> Z := FLT_exp (-1074) 53.
Definition double (x : R) : Prop := generic_format radix2 double_exp x.
Global Instance double_prec : Prec_gt_0 53.
Proof. reflexivity. Qed.
Global Instance double_valid : Valid_exp double_exp.
Proof. apply FLT_exp_valid. exact double_prec. Qed.
(** numpy.log2 and math.log2 on positive doubles: the result is one of the two doubles that enclose the exact logarithm
    (a correctly rounded logarithm is one of those; see [nearest_faithful]). *)
Definition faithful_log2 (f : R -> R) : Prop := forall x, double x -> (0 < x)%R ->
  f x = round radix2 double_exp Zfloor (log2 x) \/ f x = round radix2 double_exp Zceil (log2 x).
Lemma nearest_faithful c : faithful_log2 (fun x => round radix2 double_exp (Znearest c) (log2 x)).
Proof. intros x _ _. apply round_DN_or_UP. apply valid_rnd_N. Qed.

Section Code.
Variable log2f : R -> R.
(** base_frontend.py:89-91. [N_input + 2 * min_to_pad] and [3 * N_input - 2] are integers, converted to double. *)
Definition J_pad_float (N_input min_to_pad : Z) : Z :=
  let J_max_support := Zfloor (log2f (IZR (3 * N_input - 2))) in
  Z.min (Zceil (log2f (IZR (N_input + 2 * min_to_pad)))) J_max_support.
(** base_frontend.py:272-274 and 737-739, filter_bank.py:367. *)
Definition log2_T_float (T : R) : Z := Zfloor (log2f T).
(** base_frontend.py:263-270 and 748-755: [None] stands for the ValueError. *)
Definition log2_stride_float (s : Z) : option Z :=
  let l := log2f (IZR s) in
  if Zfloor l =? Zceil l then Some (Zfloor l) else None.
(** filter_bank.py:230-233. *)
Definition subsampling_float (upper_bound : R) : Z := Zfloor (- log2f upper_bound) - 1.
End Code.

(** ** Doubles *)
Lemma double_int n : Z.abs n <= 2 ^ 53 -> double (IZR n).
Proof.
  intros H. assert (D : (Z.abs n < 2 ^ 53 \/ n = 2 ^ 53 \/ n = - 2 ^ 53)%Z) by lia. apply generic_format_FLT.
  destruct D as [D|[D|D]].
  - apply (FLT_spec _ _ _ _ (Float radix2 n 0)); [unfold F2R; cbn; ring|exact D|cbn; lia].
  - apply (FLT_spec _ _ _ _ (Float radix2 1 53)); [subst n; unfold F2R; cbn; lra|cbn; lia|cbn; lia].
  - apply (FLT_spec _ _ _ _ (Float radix2 (-1) 53)); [subst n; unfold F2R; cbn; lra|cbn; lia|cbn; lia].
Qed.
Lemma double_frac m : Z.abs m < 2 ^ 53 -> double (IZR m / 2 ^ 46).
Proof.
  intros H. apply generic_format_FLT. apply (FLT_spec _ _ _ _ (Float radix2 m (-46))); [|exact H|cbn; lia].
  unfold F2R. cbn [Fnum Fexp]. unfold bpow. cbn [radix_val radix2 Z.pow_pos Pos.iter]. unfold Rdiv. f_equal. f_equal. cbn. lra.
Qed.
Lemma faithful_ge f x y : faithful_log2 f -> double x -> (0 < x)%R -> double y -> (y <= log2 x)%R -> (y <= f x)%R.
Proof.
  intros Hf Hx H0 Hy H. destruct (Hf x Hx H0) as [-> | ->].
  - rewrite <- (round_generic radix2 double_exp Zfloor y Hy). apply round_le; [exact double_valid|apply valid_rnd_DN|exact H].
  - rewrite <- (round_generic radix2 double_exp Zceil y Hy). apply round_le; [exact double_valid|apply valid_rnd_UP|exact H].
Qed.
Lemma faithful_le f x y : faithful_log2 f -> double x -> (0 < x)%R -> double y -> (log2 x <= y)%R -> (f x <= y)%R.
Proof.
  intros Hf Hx H0 Hy H. destruct (Hf x Hx H0) as [-> | ->].
  - rewrite <- (round_generic radix2 double_exp Zfloor y Hy). apply round_le; [exact double_valid|apply valid_rnd_DN|exact H].
  - rewrite <- (round_generic radix2 double_exp Zceil y Hy). apply round_le; [exact double_valid|apply valid_rnd_UP|exact H].
Qed.

(** ** Logarithms *)
Lemma ln2_range : (1 / 2 < ln 2 <= 1)%R.
Proof.
  split; [pose proof ln_lt_2; lra|]. rewrite <- (ln_exp 1). destruct (Req_dec 2 (exp 1)) as [E|E]; [now rewrite <- E; right|].
  left. apply ln_increasing; [lra|]. pose proof (exp_ineq1 1 ltac:(lra)). lra.
Qed.
Lemma log2_le x y : (0 < x)%R -> (x <= y)%R -> (log2 x <= log2 y)%R.
Proof.
  intros Hx [H|E]; [|now rewrite E; right]. unfold log2, Rdiv. apply Rmult_le_compat_r; [left; apply Rinv_0_lt_compat; pose proof ln2_range; lra|].
  left. now apply ln_increasing.
Qed.
Lemma log2_mult x y : (0 < x)%R -> (0 < y)%R -> log2 (x * y) = (log2 x + log2 y)%R.
Proof. intros Hx Hy. unfold log2. rewrite ln_mult by assumption. unfold Rdiv. ring. Qed.
Lemma log2_power k : log2 (bpow radix2 k) = IZR k.
Proof.
  rewrite bpow_exp. unfold log2. rewrite ln_exp. cbn [radix_val radix2]. field. pose proof ln2_range. lra.
Qed.
Lemma ln_below d : (0 <= d < 1)%R -> (ln (1 - d) <= - d)%R.
Proof.
  intros H. destruct (Req_dec d 0) as [-> |Hd]; [rewrite Rminus_0_r, ln_1; lra|]. rewrite <- (ln_exp (- d)). left. apply ln_increasing; [lra|].
  pose proof (exp_ineq1 (- d) ltac:(lra)). lra.
Qed.
Lemma log2_below d : (0 <= d < 1)%R -> (log2 (1 - d) <= - d)%R.
Proof.
  intros H. pose proof (ln_below d H) as Hd. pose proof ln2_range. unfold log2. apply Rmult_le_reg_r with (ln 2); [lra|].
  unfold Rdiv. rewrite Rmult_assoc, Rinv_l, Rmult_1_r by lra. nra.
Qed.
Lemma log2_above d : (0 <= d <= 1)%R -> (d / 2 <= log2 (1 + d))%R.
Proof.
  intros H. pose proof ln2_range. unfold log2. apply Rmult_le_reg_r with (ln 2); [lra|].
  unfold Rdiv at 2. rewrite Rmult_assoc, Rinv_l, Rmult_1_r by lra.
  assert (E : ln (1 + d) = (- ln (1 - d / (1 + d)))%R).
  { rewrite <- ln_Rinv; [f_equal; field; lra|]. replace (1 - d / (1 + d))%R with (/ (1 + d))%R by (field; lra). apply Rinv_0_lt_compat. lra. }
  rewrite E. assert (B : (d / 2 <= d / (1 + d) < 1)%R).
  { split; [unfold Rdiv; apply Rmult_le_compat_l; [lra|]; apply Rinv_le_contravar; lra|].
    apply Rmult_lt_reg_r with (1 + d)%R; [lra|]. unfold Rdiv. rewrite Rmult_assoc, Rinv_l; lra. }
  pose proof (ln_below (d / (1 + d)) ltac:(lra)). nra.
Qed.

(** ** Comparison with a power of two *)
Section Compare.
Variable (f : R -> R).
Hypothesis (Hf : faithful_log2 f).
Lemma float_ge x k : double x -> Z.abs k <= 64 -> (bpow radix2 k <= x)%R -> (IZR k <= f x)%R.
Proof.
  intros Hx Hk H. pose proof (bpow_gt_0 radix2 k). apply (faithful_ge f x _ Hf Hx ltac:(lra)); [apply double_int; lia|].
  rewrite <- log2_power. now apply log2_le.
Qed.
Lemma float_le x k : double x -> Z.abs k <= 64 -> (0 < x)%R -> (x <= bpow radix2 k)%R -> (f x <= IZR k)%R.
Proof.
  intros Hx Hk H0 H. apply (faithful_le f x _ Hf Hx H0); [apply double_int; lia|]. rewrite <- log2_power. now apply log2_le.
Qed.
Lemma float_lt x k d : double x -> Z.abs k <= 64 -> (0 < x)%R -> (1 / 2 ^ 46 <= d < 1)%R -> (x <= bpow radix2 k * (1 - d))%R -> (f x < IZR k)%R.
Proof.
  intros Hx Hk H0 Hd H. pose proof (bpow_gt_0 radix2 k).
  assert (P : (0 < 1 / 2 ^ 46)%R) by (apply Rdiv_lt_0_compat; [lra|apply pow_lt; lra]).
  apply Rle_lt_trans with (IZR (k * 2 ^ 46 - 1) / 2 ^ 46)%R.
  - apply (faithful_le f x _ Hf Hx H0); [apply double_frac; lia|].
    eapply Rle_trans; [apply (log2_le x (bpow radix2 k * (1 - d)) H0 H)|]. rewrite log2_mult, log2_power by lra.
    pose proof (log2_below d ltac:(lra)). replace (IZR (k * 2 ^ 46 - 1) / 2 ^ 46)%R with (IZR k - 1 / 2 ^ 46)%R; [lra|].
    rewrite minus_IZR, mult_IZR. replace (IZR (2 ^ 46)) with (2 ^ 46)%R by (rewrite pow_IZR; reflexivity). field.
  - rewrite minus_IZR, mult_IZR. replace (IZR (2 ^ 46)) with (2 ^ 46)%R by (rewrite pow_IZR; reflexivity).
    replace ((IZR k * 2 ^ 46 - 1) / 2 ^ 46)%R with (IZR k - 1 / 2 ^ 46)%R by field. lra.
Qed.
Lemma float_gt x k d : double x -> Z.abs k <= 64 -> (1 / 2 ^ 45 <= d <= 1)%R -> (bpow radix2 k * (1 + d) <= x)%R -> (IZR k < f x)%R.
Proof.
  intros Hx Hk Hd H. pose proof (bpow_gt_0 radix2 k) as H1.
  assert (P : (0 < 1 / 2 ^ 46)%R) by (apply Rdiv_lt_0_compat; [lra|apply pow_lt; lra]).
  assert (P' : (1 / 2 ^ 45 = 2 * (1 / 2 ^ 46))%R) by (cbn; field).
  assert (Hy : (0 < bpow radix2 k * (1 + d))%R) by (apply Rmult_lt_0_compat; lra).
  assert (E : ((IZR k * 2 ^ 46 + 1) / 2 ^ 46 = IZR k + 1 / 2 ^ 46)%R) by field.
  apply Rlt_le_trans with (IZR (k * 2 ^ 46 + 1) / 2 ^ 46)%R.
  - rewrite plus_IZR, mult_IZR. replace (IZR (2 ^ 46)) with (2 ^ 46)%R by (rewrite pow_IZR; reflexivity). rewrite E. lra.
  - apply (faithful_ge f x _ Hf Hx ltac:(lra)); [apply double_frac; lia|].
    eapply Rle_trans; [|apply (log2_le _ x Hy H)]. rewrite log2_mult, log2_power by lra.
    pose proof (log2_above d ltac:(lra)). rewrite plus_IZR, mult_IZR. replace (IZR (2 ^ 46)) with (2 ^ 46)%R by (rewrite pow_IZR; reflexivity).
    rewrite E. lra.
Qed.
Lemma bpow_2 k : 0 <= k -> bpow radix2 k = IZR (2 ^ k).
Proof. intros Hk. symmetry. now apply (IZR_Zpower radix2). Qed.
(** Integers up to 2^45: the logarithm is on the right side of every integer. *)
Lemma float_log2 n : 1 <= n <= 2 ^ 45 -> (IZR (Z.log2 n) <= f (IZR n) < IZR (Z.log2 n + 1))%R /\ (2 ^ Z.log2 n < n -> (IZR (Z.log2 n) < f (IZR n))%R).
Proof.
  intros [H1 H2]. pose proof (Z.log2_spec n ltac:(lia)) as [L1 L2]. pose proof (Z.log2_nonneg n).
  assert (L3 : Z.log2 n <= 45) by (rewrite <- (Z.log2_pow2 45) by lia; now apply Z.log2_le_mono).
  set (k := Z.log2 n) in *. assert (Dn : double (IZR n)) by (apply double_int; lia).
  assert (P : forall e, (0 < 2 ^ e)%R) by (intros; apply pow_lt; lra).
  assert (Q : forall e, 0 <= e -> IZR (2 ^ e) = (2 ^ Z.to_nat e)%R) by (intros e He; rewrite pow_IZR, Z2Nat.id by lia; reflexivity).
  split; [split|].
  - apply float_ge; [exact Dn|lia|]. rewrite bpow_2 by lia. apply IZR_le. lia.
  - apply (float_lt _ _ (1 / IZR (2 ^ (k + 1)))); [exact Dn|lia|apply IZR_lt; lia| |].
    + rewrite Q by lia. split.
      * unfold Rdiv. apply Rmult_le_compat_l; [lra|]. apply Rinv_le_contravar; [apply P|]. apply Rle_pow; [lra|lia].
      * apply Rmult_lt_reg_r with (2 ^ Z.to_nat (k + 1))%R; [apply P|]. unfold Rdiv. rewrite Rmult_assoc, Rinv_l by (apply Rgt_not_eq, P).
        rewrite <- Q by lia. replace (2 ^ (k + 1)) with (2 * 2 ^ k) by (rewrite Z.pow_add_r by lia; lia).
        assert (1 <= 2 ^ k) by (pose proof (Z.pow_pos_nonneg 2 k); lia). rewrite ?Rmult_1_l, ?Rmult_1_r. apply IZR_lt. lia.
    + rewrite bpow_2 by lia. replace (IZR (2 ^ (k + 1)) * (1 - 1 / IZR (2 ^ (k + 1))))%R with (IZR (2 ^ (k + 1) - 1)).
      * apply IZR_le. rewrite <- Z.add_1_r in L2. lia.
      * rewrite minus_IZR. field. rewrite Q by lia. apply Rgt_not_eq, P.
  - intros Hlt. assert (k <= 44) by (destruct (Z.eq_dec k 45) as [E|]; [rewrite E in Hlt; lia|lia]).
    apply (float_gt _ _ (1 / IZR (2 ^ k))); [exact Dn|lia| |].
    + rewrite Q by lia. split.
      * unfold Rdiv. apply Rmult_le_compat_l; [lra|]. apply Rinv_le_contravar; [apply P|]. apply Rle_pow; [lra|lia].
      * apply Rmult_le_reg_r with (2 ^ Z.to_nat k)%R; [apply P|]. unfold Rdiv. rewrite Rmult_assoc, Rinv_l by (apply Rgt_not_eq, P).
        rewrite <- Q by lia. rewrite ?Rmult_1_l, ?Rmult_1_r. apply IZR_le. pose proof (Z.pow_pos_nonneg 2 k); lia.
    + rewrite bpow_2 by lia. replace (IZR (2 ^ k) * (1 + 1 / IZR (2 ^ k)))%R with (IZR (2 ^ k + 1)).
      * apply IZR_le. lia.
      * rewrite plus_IZR. field. rewrite Q by lia. apply Rgt_not_eq, P.
Qed.
End Compare.
