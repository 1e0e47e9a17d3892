(** Properties C98 and C99: how the 1-D Gabor responses cover the frequency axis, and how many periods
    are summed to sample them. *)
From Coq Require Import Reals ZArith List Lia Lra Psatz.
From Coquelicot Require Import Complex.
From Verif Require Import Base NdArray ComplexOps Utils1d Core1d Factory1d FactoryProofs FilterBank1d FilterBank1dProofs Norm1d.
Import ListNotations.
Local Open Scope R_scope.

(** The frequency response of the Gabor term of centre [xi] and bandwidth [sigma] (filter_bank.py:13-18, 90). *)
Definition gabor (xi sigma w : R) : R := exp (- ((w - xi) ^ 2) / (2 * sigma ^ 2)).

Lemma div_le a d b : 0 < d -> a <= b * d -> a / d <= b.
Proof. intros H E. apply Rmult_le_reg_r with d; [exact H|]. unfold Rdiv. rewrite Rmult_assoc, Rinv_l by lra. lra. Qed.
Lemma le_div a d b : 0 < d -> b * d <= a -> b <= a / d.
Proof. intros H E. apply Rmult_le_reg_r with d; [exact H|]. unfold Rdiv. rewrite Rmult_assoc, Rinv_l by lra. lra. Qed.

Lemma gabor_peak xi sigma w : 0 < sigma -> gabor xi sigma xi = 1 /\ gabor xi sigma w <= 1.
Proof.
  intros H. unfold gabor. split.
  - replace (- ((xi - xi) ^ 2) / (2 * sigma ^ 2)) with 0 by (field; lra). apply exp_0.
  - rewrite <- exp_0. assert (E : - (w - xi) ^ 2 / (2 * sigma ^ 2) <= 0).
    { pose proof (pow2_ge_0 (w - xi)). pose proof (pow_lt sigma 2 H). apply div_le; lra. }
    destruct E as [E|E]; [left; now apply exp_increasing|right; now rewrite E].
Qed.
Lemma exp_le a b : a <= b -> exp a <= exp b.
Proof. intros [H|H]; [left; now apply exp_increasing|right; now rewrite H]. Qed.
Lemma gabor_ge xi sigma w L : 0 < sigma -> (w - xi) ^ 2 <= 2 * sigma ^ 2 * L -> exp (- L) <= gabor xi sigma w.
Proof.
  intros H E. unfold gabor. pose proof (pow_lt sigma 2 H). apply exp_le. apply le_div; lra.
Qed.
Lemma gabor_le xi sigma w L : 0 < sigma -> 2 * sigma ^ 2 * L <= (w - xi) ^ 2 -> gabor xi sigma w <= exp (- L).
Proof.
  intros H E. unfold gabor. pose proof (pow_lt sigma 2 H). apply exp_le. apply div_le; lra.
Qed.
Lemma gabor_eq xi sigma w L : 0 < sigma -> (w - xi) ^ 2 = 2 * sigma ^ 2 * L -> gabor xi sigma w = exp (- L).
Proof. intros H E. apply Rle_antisym; [apply gabor_le|apply gabor_ge]; lra. Qed.

(** Two adjacent filters of the geometric progression, for every r in (0,1). *)
Theorem C98_meet : forall Q xi r, (1 <= Q)%Z -> 0 < xi -> 0 < r < 1 ->
  let u := Rpower 2 (1 / IZR Q) in let s := compute_sigma_psi xi Q r in
  0 < s /\
  (exists w, xi / u < w < xi /\ gabor xi s w = r /\ gabor (xi / u) (s / u) w = r) /\
  (forall w, xi / u <= w <= xi -> r <= gabor xi s w \/ r <= gabor (xi / u) (s / u) w).
Proof.
  intros Q xi r HQ Hx Hr u s.
  assert (U : 1 < u) by apply (ratio_gt1 Q HQ).
  set (L := ln (1 / r)).
  assert (HL : 0 < L).
  { unfold L. rewrite <- ln_1. apply ln_increasing; [lra|]. apply Rmult_lt_reg_r with r; [lra|]. field_simplify; lra. }
  assert (ER : exp (- L) = r).
  { unfold L. unfold Rdiv. rewrite Rmult_1_l, ln_Rinv, Ropp_involutive by lra. apply exp_ln. lra. }
  set (c := sqrt (2 * L)).
  assert (Hc : 0 < c) by (apply sqrt_lt_R0; lra).
  assert (Hc2 : c * c = 2 * L) by (apply sqrt_sqrt; lra).
  set (t := (u - 1) / (u + 1)).
  assert (Ht : 0 < t < 1).
  { unfold t. split; [apply Rdiv_lt_0_compat; lra|]. apply Rmult_lt_reg_r with (u + 1); [lra|]. field_simplify; lra. }
  assert (Es : s = xi * t / c).
  { unfold s, compute_sigma_psi. fold u L. fold c. unfold t. field. lra. }
  assert (Sp : 0 < s) by (rewrite Es; apply Rdiv_lt_0_compat; nra).
  assert (Su : 0 < s / u) by (apply Rdiv_lt_0_compat; lra).
  assert (K1 : 2 * s ^ 2 * L = (xi * t) ^ 2).
  { transitivity (s ^ 2 * (c * c)); [rewrite Hc2; ring|]. rewrite Es. field. lra. }
  assert (K2 : 2 * (s / u) ^ 2 * L = (xi / u * t) ^ 2).
  { transitivity ((2 * s ^ 2 * L) / u ^ 2); [field; lra|]. rewrite K1. field. lra. }
  assert (M : xi - xi * t = xi / u + xi / u * t) by (unfold t; field; lra).
  assert (X1 : 0 < xi / u) by (apply Rdiv_lt_0_compat; lra).
  split; [exact Sp|]. split.
  - exists (xi - xi * t). split; [split; nra|]. split.
    + rewrite <- ER. apply gabor_eq; [exact Sp|]. rewrite K1. ring.
    + rewrite <- ER. apply gabor_eq; [exact Su|]. rewrite K2, M. ring.
  - intros w [W1 W2]. destruct (Rle_dec (xi - xi * t) w) as [B|B].
    + left. rewrite <- ER. apply gabor_ge; [exact Sp|]. rewrite K1. nra.
    + right. rewrite <- ER. apply gabor_ge; [exact Su|]. rewrite K2. nra.
Qed.
Print Assumptions C98_meet.

Lemma chain (f : nat -> R) k w : f k <= w <= f 0%nat -> w = f 0%nat \/ exists i, (i < k)%nat /\ f (S i) <= w <= f i.
Proof.
  induction k as [|k IH]; intros [A B]; [left; lra|].
  destruct (Rle_dec (f k) w) as [D|D].
  - destruct (IH (conj D B)) as [E|(i & Hi & E)]; [now left|]. right. exists i. split; [lia|exact E].
  - right. exists k. split; [lia|]. lra.
Qed.

(** Exponential bounds. *)
Lemma exp_155 : exp (155 / 100) <= 5.
Proof.
  assert (H : (1 - 155 / 6400) ^ 64 <= exp (- (155 / 100))).
  { replace (- (155 / 100)) with (INR 64 * (- (155 / 6400))) by (simpl; lra).
    rewrite <- pow_exp. apply pow_incr. split; [lra|].
    replace (1 - 155 / 6400) with (1 + - (155 / 6400)) by ring. apply exp_ineq1_le. }
  rewrite exp_Ropp in H. pose proof (exp_pos (155 / 100)).
  assert (H2 : 1 / 5 < (1 - 155 / 6400) ^ 64) by lra.
  assert (H3 : 1 / 5 * exp (155 / 100) <= 1).
  { apply Rle_trans with (/ exp (155 / 100) * exp (155 / 100)); [apply Rmult_le_compat_r; lra|right; apply Rinv_l; lra]. }
  lra.
Qed.
Lemma fifth : 1 / 5 <= exp (- (155 / 100)).
Proof.
  rewrite exp_Ropp. pose proof exp_155. pose proof (exp_pos (155 / 100)). apply Rmult_le_reg_r with (exp (155 / 100)); [lra|].
  rewrite Rinv_l by lra. lra.
Qed.

(** Spacing over bandwidth in the constant-bandwidth region. *)
Lemma spacing Q : (2 <= Q)%Z -> ratio Q <= 2 * (176 / 100) * (IZR Q * rho Q).
Proof.
  intros HQ. pose proof (ratio_gt1 Q ltac:(lia)) as U. pose proof sqrt_ln2 as [S1 S2].
  assert (Q2 : 2 <= IZR Q) by now apply IZR_le.
  assert (K : forall b, 0 < b -> ratio Q * ((ratio Q + 1) * b) <= 2 * (176 / 100) * (IZR Q * (ratio Q - 1)) -> sqrt (ln 2) <= b ->
    ratio Q <= 2 * (176 / 100) * (IZR Q * rho Q)).
  { intros b Hb H1 H2. unfold rho. apply Rmult_le_reg_r with ((ratio Q + 1) * sqrt (ln 2)); [nra|].
    replace (2 * (176 / 100) * (IZR Q * ((ratio Q - 1) / (ratio Q + 1) / sqrt (ln 2))) * ((ratio Q + 1) * sqrt (ln 2)))
      with (2 * (176 / 100) * (IZR Q * (ratio Q - 1))) by (field; lra).
    eapply Rle_trans; [|exact H1]. apply Rmult_le_compat_l; [lra|]. apply Rmult_le_compat_l; lra. }
  apply (K (84 / 100)); [lra| |lra].
  destruct (Z.eq_dec Q 2) as [->|Hq].
  - pose proof ratio_2 as U2. assert (H : ratio 2 * ratio 2 = 2).
    { pose proof (ratio_pow 2 ltac:(lia)) as H. simpl in H. lra. }
    assert (1414 / 1000 < ratio 2).
    { apply Rnot_le_lt. intros Hc. assert (ratio 2 * ratio 2 <= 1414 / 1000 * (1414 / 1000)) by (apply Rmult_le_compat; lra). lra. }
    lra.
  - pose proof (ratio_lower Q ltac:(lia)) as LB. pose proof ln2_lower as LL.
    assert (UB : ratio Q <= 126 / 100).
    { eapply Rle_trans; [apply (ratio_mono 3); lia|]. pose proof (ratio_pow 3 ltac:(lia)) as H. change (Z.to_nat 3) with 3%nat in H.
      pose proof (ratio_gt1 3 ltac:(lia)). apply Rnot_lt_le. intros Hc.
      assert ((126 / 100) ^ 3 <= ratio 3 ^ 3) by (apply pow_incr; lra). lra. }
    assert (LB' : 68 / 100 <= IZR Q * (ratio Q - 1)).
    { apply Rle_trans with (IZR Q * (ln 2 / IZR Q)); [|apply Rmult_le_compat_l; lra].
      replace (IZR Q * (ln 2 / IZR Q)) with (ln 2) by (field; lra). lra. }
    nra.
Qed.

(** The lowest centre frequency lies below 5 sigma_min = (1/2)/2^J. *)
Lemma elbow_le J Q xe : (0 <= J)%Z -> (2 <= Q)%Z -> 0 < xe -> rho Q * xe <= smin J * ratio Q ->
  xe <= 2 * (176 / 100) * IZR Q * smin J.
Proof.
  intros HJ HQ H0 H. pose proof (rho_pos Q ltac:(lia)) as R0. pose proof (spacing Q HQ) as SP. pose proof (smin_pos J HJ).
  apply Rmult_le_reg_l with (rho Q); [exact R0|]. eapply Rle_trans; [exact H|].
  apply Rle_trans with (smin J * (2 * (176 / 100) * (IZR Q * rho Q))); [apply Rmult_le_compat_l; lra|]. right. ring.
Qed.

Lemma In_arith_intro Q xe s q : (1 <= q)%nat -> (Z.of_nat q < Q)%Z -> In (xe * (1 - INR q / IZR Q), s) (arith Q xe s).
Proof.
  intros H1 H2. destruct q as [|q]; [lia|]. unfold arith. apply in_map_iff. exists q. split; [reflexivity|]. apply in_seq. lia.
Qed.
Lemma In_geo_intro u xi s k i : (i <= k)%nat -> In (xi / u ^ i, s / u ^ i) (geo u xi s k).
Proof. intros H. unfold geo. apply in_map_iff. exists i. split; [reflexivity|]. apply in_seq. lia. Qed.

(** Every wavelet family whose largest bandwidth exceeds the minimum: at least r_psi wherever the progression is
    geometric, at least 1/5 everywhere between pi/2^J (frequency (1/2)/2^J) and the largest centre frequency. *)
Theorem C98_coverage_partial : forall J Q l, (0 <= J)%Z -> (1 <= Q)%Z -> anden J Q sigma0 r_psi l ->
  sigma0 / powerRZ 2 J < compute_sigma_psi (compute_xi_max Q) Q r_psi ->
  (forall w xi sigma, In (xi, sigma) l -> sigma0 / powerRZ 2 J < sigma -> xi <= w <= compute_xi_max Q ->
     exists x s, In (x, s) l /\ r_psi <= gabor x s w) /\
  (forall w, 1 / 2 / powerRZ 2 J <= w <= compute_xi_max Q -> exists x s, In (x, s) l /\ 1 / 5 <= gabor x s w).
Proof.
  intros J Q l HJ HQ H Hb. fold (smin J) in *. rewrite sigma_rho in Hb by exact HQ.
  pose proof (rho_pos Q HQ) as R0. pose proof (xi_max_lt Q HQ) as X. pose proof (smin_pos J HJ) as S0.
  pose proof (ratio_gt1 Q HQ) as U. pose proof (IZR_ge1 Q HQ) as Q1.
  pose proof (anden_shape J Q l HJ HQ H) as Hs. cbv zeta in Hs. set (x0 := compute_xi_max Q) in *.
  destruct Hs as [[Hs _]|(k & Hk & [Hs1 Hs2] & Hi & E)]; [lra|].
  assert (Rp : 1 / 5 <= r_psi /\ 0 < r_psi < 1).
  { unfold r_psi. assert (7 / 10 < sqrt (1 / 2)).
    { rewrite <- (sqrt_Rsqr (7 / 10)) by lra. apply sqrt_lt_1; unfold Rsqr; lra. }
    assert (sqrt (1 / 2) < 1) by (rewrite <- sqrt_1 at 2; apply sqrt_lt_1; lra). lra. }
  pose proof (u_pow_pos (ratio Q) k U) as Pk.
  set (xe := x0 / ratio Q ^ k) in *.
  assert (Xe : 0 < xe) by (apply Rdiv_lt_0_compat; lra).
  assert (Ee : rho Q * xe = rho Q * x0 / ratio Q ^ k) by (unfold xe; field; lra).
  (* the geometric part *)
  assert (G : forall w, xe <= w <= x0 -> exists x s, In (x, s) l /\ r_psi <= gabor x s w).
  { intros w Hw. destruct (chain (fun i => x0 / ratio Q ^ i) k w) as [B|(i & Hik & B)].
    - cbn [pow]. rewrite Rdiv_1. exact Hw.
    - cbn [pow] in B. rewrite Rdiv_1 in B. exists (x0 / ratio Q ^ 0), (rho Q * x0 / ratio Q ^ 0). split.
      + rewrite E. apply in_or_app. left. apply In_geo_intro. lia.
      + cbn [pow]. rewrite !Rdiv_1, B. destruct (gabor_peak x0 (rho Q * x0) x0) as [-> _]; [nra|lra].
    - pose proof (u_pow_pos (ratio Q) i U) as Pi.
      assert (Xi : 0 < x0 / ratio Q ^ i) by (apply Rdiv_lt_0_compat; lra).
      destruct (C98_meet Q (x0 / ratio Q ^ i) r_psi HQ Xi (proj2 Rp)) as (_ & _ & C). fold (ratio Q) in C.
      rewrite sigma_rho in C by exact HQ.
      replace (x0 / ratio Q ^ i / ratio Q) with (x0 / ratio Q ^ S i) in C by (cbn [pow]; field; lra).
      replace (rho Q * (x0 / ratio Q ^ i)) with (rho Q * x0 / ratio Q ^ i) in C by (field; lra).
      replace (rho Q * x0 / ratio Q ^ i / ratio Q) with (rho Q * x0 / ratio Q ^ S i) in C by (cbn [pow]; field; lra).
      destruct (C w B) as [D|D].
      + exists (x0 / ratio Q ^ i), (rho Q * x0 / ratio Q ^ i). split; [|exact D].
        rewrite E. apply in_or_app. left. apply In_geo_intro. lia.
      + exists (x0 / ratio Q ^ S i), (rho Q * x0 / ratio Q ^ S i). split; [|exact D].
        rewrite E. apply in_or_app. left. apply In_geo_intro. lia. }
  split.
  - intros w xi sigma Hin Hsg Hw. apply G. split; [|lra]. apply Rle_trans with xi; [|lra].
    rewrite E in Hin. apply in_app_or in Hin as [Hin|Hin].
    + apply In_geo in Hin as (i & Hik & Ei). injection Ei as -> _.
      apply (bound_later x0 (ratio Q) i k U); [lra|exact Hik].
    + apply In_arith in Hin as (q & _ & Ei). injection Ei as _ Es. lra.
  - intros w [W1 W2]. destruct (Rle_dec xe w) as [D|D].
    { destruct (G w ltac:(lra)) as (x & s & A & B). exists x, s. split; [exact A|lra]. }
    assert (B5 : 5 * smin J = 1 / 2 / powerRZ 2 J).
    { unfold smin, sigma0. pose proof (pow2J_ge1 J HJ). field. lra. }
    destruct (Z.eq_dec Q 1) as [EQ|NQ].
    { (* Q = 1: the lowest filter is 0.35 / 2^J *)
      exfalso. apply D. subst Q. pose proof (anden_unique _ _ _ _ _ _ H (anden_Q1 J HJ)) as EE.
      assert (Hx : In (35 / 100 / 2 ^ Z.to_nat J, rho 1 * (35 / 100 / 2 ^ Z.to_nat J)) l).
      { rewrite EE. apply in_map_iff. exists (Z.to_nat J). split; [reflexivity|]. apply in_seq. lia. }
      assert (Lk : xe <= 35 / 100 / 2 ^ Z.to_nat J).
      { rewrite E in Hx. apply in_app_or in Hx as [Hx|Hx].
        - apply In_geo in Hx as (i & Hik & Ei). injection Ei as -> _.
          apply (bound_later x0 (ratio 1) i k U); [lra|exact Hik].
        - apply In_arith in Hx as (q & Hq & _). cbn in Hq. lia. }
      rewrite pow_powerRZ, Z2Nat.id in Lk by exact HJ. pose proof (pow2J_ge1 J HJ) as P2.
      eapply Rle_trans; [exact Lk|]. eapply Rle_trans; [|exact W1].
      unfold Rdiv at 1 3. apply Rmult_le_compat_r; [|lra]. left. apply Rinv_0_lt_compat. lra. }
    assert (HQ2 : (2 <= Q)%Z) by lia.
    pose proof (elbow_le J Q xe HJ HQ2 Xe ltac:(lra)) as EL.
    assert (Sp : xe / IZR Q <= 2 * (176 / 100) * smin J) by (apply div_le; lra).
    destruct (chain (fun i => xe * (1 - INR i / IZR Q)) (Z.to_nat (Q - 1)) w) as [B|(i & Hik & B)].
    + split.
      * rewrite INR_IZR_INZ, Z2Nat.id, minus_IZR by lia.
        replace (xe * (1 - (IZR Q - 1) / IZR Q)) with (xe / IZR Q) by (field; lra). lra.
      * cbn [INR]. replace (0 / IZR Q) with 0 by (field; lra). lra.
    + cbn [INR] in B. replace (0 / IZR Q) with 0 in B by (field; lra). lra.
    + assert (Fe : xe * (1 - INR (S i) / IZR Q) = xe * (1 - INR i / IZR Q) - xe / IZR Q) by (rewrite S_INR; field; lra).
      rewrite Fe in B. set (y := xe * (1 - INR i / IZR Q)) in *. set (d := xe / IZR Q) in *.
      assert (NR : forall x s, smin J <= s -> - (d / 2) <= w - x <= d / 2 -> 1 / 5 <= gabor x s w).
      { intros x s H1 H2. eapply Rle_trans; [exact fifth|]. apply gabor_ge; [lra|].
        apply Rle_trans with ((176 / 100 * smin J) ^ 2); [|].
        - rewrite <- (Rsqr_pow2 (w - x)), <- (Rsqr_pow2 (176 / 100 * smin J)). apply neg_pos_Rsqr_le; lra.
        - assert (smin J ^ 2 <= s ^ 2) by (apply pow_incr; lra). pose proof (pow2_ge_0 (smin J)). lra. }
      destruct (Rle_dec (y - d / 2) w) as [Hn|Hn].
      * destruct i as [|i].
        -- exists xe, (rho Q * xe). split.
           ++ rewrite E. apply in_or_app. left. rewrite Ee. apply In_geo_intro. lia.
           ++ apply NR; [lra|]. unfold y in B, Hn |- *. cbn [INR] in *. replace (0 / IZR Q) with 0 in * by (field; lra). lra.
        -- exists y, (smin J). split; [|apply NR; lra]. rewrite E. apply in_or_app. right. apply In_arith_intro; lia.
      * exists (y - d), (smin J). split; [|apply NR; lra]. rewrite E. apply in_or_app. right. rewrite <- Fe. apply In_arith_intro; lia.
Qed.
Print Assumptions C98_coverage_partial.

Lemma r_psi_lower : 7 / 10 < r_psi.
Proof. unfold r_psi. rewrite <- (sqrt_Rsqr (7 / 10)) by lra. apply sqrt_lt_1; unfold Rsqr; lra. Qed.
Lemma exp_half : exp (- (1 / 2)) < 7 / 10.
Proof.
  pose proof (exp_ineq1 (1 / 2) ltac:(lra)) as H. rewrite exp_Ropp.
  apply Rle_lt_trans with (/ (3 / 2)); [apply Rinv_le_contravar|]; lra.
Qed.
(** One bandwidth away from the centre the response is already below r_psi. *)
Lemma gabor_far x s w : 0 < s -> s <= Rabs (w - x) -> gabor x s w < r_psi.
Proof.
  intros H E. apply Rle_lt_trans with (exp (- (1 / 2))); [|pose proof exp_half; pose proof r_psi_lower; lra].
  apply gabor_le; [exact H|]. rewrite <- (pow2_abs (w - x)).
  assert (s ^ 2 <= Rabs (w - x) ^ 2) by (apply pow_incr; lra). lra.
Qed.
(** The constant-Q bandwidth is less than half a step of the arithmetic progression: 2 Q rho <= 1. *)
Lemma rho_Q Q : (2 <= Q)%Z -> 2 * IZR Q * rho Q <= 1.
Proof.
  intros HQ. pose proof (ratio_gt1 Q ltac:(lia)) as U. pose proof (ratio_le_sqrt2 Q HQ) as U2. pose proof sqrt_ln2 as [S1 S2].
  assert (Q2 : 2 <= IZR Q) by now apply IZR_le.
  assert (LU : IZR Q * ln (ratio Q) = ln 2).
  { unfold ratio, Rpower. rewrite ln_exp. field. lra. }
  assert (IN : ratio Q - 1 <= ratio Q * ln (ratio Q)).
  { assert (A : 1 - ln (ratio Q) <= / ratio Q).
    { rewrite <- (exp_ln (ratio Q)) at 2 by lra. rewrite <- exp_Ropp. pose proof (exp_ineq1_le (- ln (ratio Q))). lra. }
    apply Rmult_le_compat_l with (r := ratio Q) in A; [|lra]. rewrite Rinv_r in A by lra. lra. }
  assert (SS : sqrt (ln 2) * sqrt (ln 2) = ln 2) by (apply sqrt_sqrt; left; apply ln2_pos).
  unfold rho. replace (2 * IZR Q * ((ratio Q - 1) / (ratio Q + 1) / sqrt (ln 2)))
    with ((2 * (IZR Q * (ratio Q - 1))) / ((ratio Q + 1) * sqrt (ln 2))) by (field; lra).
  apply div_le; [nra|]. rewrite Rmult_1_l.
  assert (B : IZR Q * (ratio Q - 1) <= ratio Q * ln 2).
  { rewrite <- LU. apply Rle_trans with (IZR Q * (ratio Q * ln (ratio Q))); [apply Rmult_le_compat_l; lra|right; ring]. }
  apply Rle_trans with (2 * (ratio Q * (sqrt (ln 2) * sqrt (ln 2)))); [rewrite SS; lra|].
  apply Rle_trans with ((2 * ratio Q * sqrt (ln 2)) * sqrt (ln 2)); [right; ring|].
  apply Rmult_le_compat_r; [lra|]. nra.
Qed.

(** With two or more wavelets per octave the constant-bandwidth wavelets do not meet at r_psi: half way below the
    elbow every wavelet of the bank is below r_psi.  From three wavelets per octave on this is inside the range
    [pi/2^J, pi] that the docstring claims to cover. *)
Theorem C98_low_frequency_refuted : forall J Q l, (0 <= J)%Z -> (2 <= Q)%Z -> anden J Q sigma0 r_psi l ->
  sigma0 / powerRZ 2 J < compute_sigma_psi (compute_xi_max Q) Q r_psi ->
  exists w, 0 < w < compute_xi_max Q /\ ((3 <= Q)%Z -> 1 / 2 / powerRZ 2 J <= w) /\
    (exists a b, In a l /\ In b l /\ fst a < w < fst b) /\
    forall x s, In (x, s) l -> gabor x s w < r_psi.
Proof.
  intros J Q l HJ HQ2 H Hb. assert (HQ : (1 <= Q)%Z) by lia. fold (smin J) in *. rewrite sigma_rho in Hb by exact HQ.
  pose proof (rho_pos Q HQ) as R0. pose proof (xi_max_lt Q HQ) as X. pose proof (smin_pos J HJ) as S0.
  pose proof (ratio_gt1 Q HQ) as U. assert (Q2 : 2 <= IZR Q) by now apply IZR_le. pose proof (rho_Q Q HQ2) as RQ.
  pose proof (anden_shape J Q l HJ HQ H) as Hs. cbv zeta in Hs. set (x0 := compute_xi_max Q) in *.
  destruct Hs as [[Hs _]|(k & Hk & [Hs1 Hs2] & Hi & E)]; [lra|].
  pose proof (u_pow_pos (ratio Q) k U) as Pk. set (xe := x0 / ratio Q ^ k) in *.
  assert (Xe : 0 < xe) by (apply Rdiv_lt_0_compat; lra).
  assert (Xe0 : xe <= x0).
  { pose proof (bound_later x0 (ratio Q) 0 k U ltac:(lra) ltac:(lia)) as B. cbn [pow] in B. rewrite Rdiv_1 in B. exact B. }
  assert (Ee : rho Q * xe = rho Q * x0 / ratio Q ^ k) by (unfold xe; field; lra).
  set (d := xe / IZR Q).
  assert (Dp : 0 < d) by (apply Rdiv_lt_0_compat; lra).
  assert (Dd : IZR Q * d = xe) by (unfold d; field; lra).
  assert (D2 : 2 * d <= xe) by (rewrite <- Dd; apply Rmult_le_compat_r; lra).
  (* the bandwidth at the elbow is at most half a step *)
  assert (K : rho Q * xe <= d / 2).
  { rewrite <- Dd. apply Rle_trans with ((2 * IZR Q * rho Q) * (d / 2)); [right; field|].
    apply Rle_trans with (1 * (d / 2)); [apply Rmult_le_compat_r; lra|lra]. }
  exists (xe - d / 2). split; [lra|]. split; [|split].
  - intros HQ3. assert (Q3 : 3 <= IZR Q) by now apply IZR_le.
    assert (B5 : 5 * smin J = 1 / 2 / powerRZ 2 J).
    { unfold smin, sigma0. pose proof (pow2J_ge1 J HJ). field. lra. }
    rewrite <- B5. assert (smin J <= d / 2) by lra. assert (3 * d <= xe) by (rewrite <- Dd; apply Rmult_le_compat_r; lra). lra.
  - exists (xe * (1 - INR 1 / IZR Q), smin J), (x0 / ratio Q ^ k, rho Q * x0 / ratio Q ^ k). cbn [fst]. split; [|split].
    + rewrite E. apply in_or_app. right. apply In_arith_intro; lia.
    + rewrite E. apply in_or_app. left. apply In_geo_intro. lia.
    + fold xe. replace (xe * (1 - INR 1 / IZR Q)) with (xe - d) by (unfold d; cbn [INR]; field; lra). lra.
  - intros x s Hin. rewrite E in Hin. apply in_app_or in Hin as [Hin|Hin].
    + apply In_geo in Hin as (i & Hik & Ei). injection Ei as -> ->.
      pose proof (bound_later x0 (ratio Q) i k U ltac:(lra) Hik) as B. fold xe in B.
      pose proof (u_pow_pos (ratio Q) i U) as Pi.
      replace (rho Q * x0 / ratio Q ^ i) with (rho Q * (x0 / ratio Q ^ i)) by (field; lra).
      set (x := x0 / ratio Q ^ i) in *. assert (R1 : rho Q < 1) by now apply rho_lt1.
      apply gabor_far; [apply Rmult_lt_0_compat; lra|].
      rewrite Rabs_left1 by lra. assert (rho Q * (x - xe) <= x - xe) by (rewrite <- (Rmult_1_l (x - xe)) at 2; apply Rmult_le_compat_r; lra).
      lra.
    + apply In_arith in Hin as (q & Hq & Ei). apply pair_equal_spec in Ei as [-> ->].
      assert (xe * (1 - INR (S q) / IZR Q) <= xe - d).
      { replace (xe - d) with (xe * (1 - 1 / IZR Q)) by (unfold d; field; lra).
        apply Rmult_le_compat_l; [lra|]. apply arith_frac; assumption. }
      apply gabor_far; [lra|]. rewrite Rabs_pos_eq by lra. lra.
Qed.
Print Assumptions C98_low_frequency_refuted.

(** At the Nyquist frequency no wavelet of any bank reaches r_psi. *)
Theorem C98_nyquist_refuted : forall J Q l, (0 <= J)%Z -> (1 <= Q)%Z -> anden J Q sigma0 r_psi l ->
  forall x s, In (x, s) l -> gabor x s (1 / 2) < r_psi.
Proof.
  intros J Q l HJ HQ H x s Hin.
  pose proof (rho_pos Q HQ) as R0. pose proof (xi_max_lt Q HQ) as X. pose proof (smin_pos J HJ) as S0.
  pose proof (ratio_gt1 Q HQ) as U. pose proof (rho_lt1 Q HQ) as R1.
  assert (T : rho Q * compute_xi_max Q <= 1 / 2 - compute_xi_max Q).
  { unfold compute_xi_max. apply Rmax_case_strong; intros _.
    - replace (Rpower 2 (3 / IZR Q)) with (ratio Q ^ 3).
      2:{ unfold ratio. rewrite <- Rpower_pow by apply exp_pos. rewrite Rpower_mult. f_equal. pose proof (IZR_ge1 Q HQ). cbn [INR]. field. lra. }
      unfold rho. pose proof sqrt_ln2 as [S1 S2]. set (u := ratio Q) in *. set (c := sqrt (ln 2)) in *.
      assert (P3 : 0 < 1 + u ^ 3) by nra.
      replace ((u - 1) / (u + 1) / c * (1 / (1 + u ^ 3))) with ((u - 1) / ((u + 1) * c) / (1 + u ^ 3)) by (field; repeat split; nra).
      replace (1 / 2 - 1 / (1 + u ^ 3)) with ((u - 1) * (u ^ 2 + u + 1) / 2 / (1 + u ^ 3)) by (field; nra).
      unfold Rdiv at 1 3. apply Rmult_le_compat_r; [left; now apply Rinv_0_lt_compat|].
      apply div_le; [nra|]. assert (1 <= (u ^ 2 + u + 1) / 2 * ((u + 1) * c)) by nra. nra.
    - pose proof (rho_mono 1 Q ltac:(lia)). pose proof rho_1. lra. }
  assert (A : forall xe q, 0 < xe <= 1 / 2 -> (q < Z.to_nat (Q - 1))%nat -> 0 < xe * (1 - INR (S q) / IZR Q) < xe).
  { intros xe q Hx Hq. pose proof (arith_frac Q q HQ Hq) as [F1 F2]. pose proof (IZR_ge1 _ HQ) as Q1.
    assert (0 < 1 / IZR Q) by (apply Rdiv_lt_0_compat; lra). split; nra. }
  pose proof (anden_shape J Q l HJ HQ H) as Hs. cbv zeta in Hs. set (x0 := compute_xi_max Q) in *.
  destruct Hs as [[Hs E]|(k & Hk & [Hs1 Hs2] & Hi & E)]; rewrite E in Hin.
  - assert (0 < rho Q * x0) by (apply Rmult_lt_0_compat; lra).
    apply In_arith in Hin as (q & Hq & Ei). apply pair_equal_spec in Ei as [-> ->].
    pose proof (A (rho Q * x0) q ltac:(lra) Hq).
    apply gabor_far; [lra|]. rewrite Rabs_pos_eq by lra. lra.
  - assert (Xk : forall i, 0 < x0 / ratio Q ^ i <= x0).
    { intros i. split; [apply Rdiv_lt_0_compat; [lra|now apply u_pow_pos]|].
      pose proof (bound_later x0 (ratio Q) 0 i U ltac:(lra) ltac:(lia)) as B. cbn [pow] in B. rewrite Rdiv_1 in B. exact B. }
    assert (Ek : forall i, rho Q * x0 / ratio Q ^ i = rho Q * (x0 / ratio Q ^ i)).
    { intros i. pose proof (u_pow_pos (ratio Q) i U). field. lra. }
    assert (Rk : forall i, rho Q * (x0 / ratio Q ^ i) <= rho Q * x0).
    { intros i. apply Rmult_le_compat_l; [lra|apply Xk]. }
    apply in_app_or in Hin as [Hin|Hin].
    + apply In_geo in Hin as (i & Hik & Ei). injection Ei as -> ->. rewrite Ek. pose proof (Rk i). pose proof (Xk i).
      apply gabor_far; [apply Rmult_lt_0_compat; lra|]. rewrite Rabs_pos_eq by lra. lra.
    + apply In_arith in Hin as (q & Hq & Ei). apply pair_equal_spec in Ei as [-> ->]. pose proof (Rk k). pose proof (Xk k). rewrite Ek in *.
      pose proof (A (x0 / ratio Q ^ k) q ltac:(lra) Hq).
      apply gabor_far; [lra|]. rewrite Rabs_pos_eq by lra. lra.
Qed.
Print Assumptions C98_nyquist_refuted.

(** When the largest bandwidth does not exceed the minimum (few octaves and many wavelets per octave) the code starts
    its arithmetic progression at sigma instead of a frequency, and nothing in [pi/2^J, pi] is covered. *)
Theorem C98_start_refuted : forall J Q l, (0 <= J)%Z -> (1 <= Q)%Z -> anden J Q sigma0 r_psi l ->
  compute_sigma_psi (compute_xi_max Q) Q r_psi <= sigma0 / powerRZ 2 J ->
  forall x s w, In (x, s) l -> 1 / 2 / powerRZ 2 J <= w -> gabor x s w < 1 / 1000.
Proof.
  intros J Q l HJ HQ H Hb x s w Hin Hw. fold (smin J) in *. rewrite sigma_rho in Hb by exact HQ.
  pose proof (rho_pos Q HQ) as R0. pose proof (xi_max_lt Q HQ) as X. pose proof (smin_pos J HJ) as S0.
  assert (B5 : 5 * smin J = 1 / 2 / powerRZ 2 J).
  { unfold smin, sigma0. pose proof (pow2J_ge1 J HJ). field. lra. }
  rewrite <- B5 in Hw.
  pose proof (anden_shape J Q l HJ HQ H) as Hs. cbv zeta in Hs. set (x0 := compute_xi_max Q) in *.
  assert (P0 : 0 < rho Q * x0) by (apply Rmult_lt_0_compat; lra).
  destruct Hs as [[Hs E]|(k & Hk & [Hs1 Hs2] & Hi & E)].
  - rewrite E in Hin. apply In_arith in Hin as (q & Hq & Ei). apply pair_equal_spec in Ei as [-> ->].
    pose proof (arith_frac Q q HQ Hq) as [F1 F2]. pose proof (IZR_ge1 _ HQ) as Q1.
    assert (0 < 1 / IZR Q) by (apply Rdiv_lt_0_compat; lra).
    set (x := rho Q * x0 * (1 - INR (S q) / IZR Q)).
    assert (Xx : x <= smin J).
    { unfold x. apply Rle_trans with (rho Q * x0 * 1); [apply Rmult_le_compat_l; lra|lra]. }
    apply Rle_lt_trans with (exp (Ropp 8)).
    + apply (gabor_le _ _ _ 8); [lra|]. apply Rle_trans with ((4 * smin J) ^ 2); [right; ring|]. apply pow_incr. lra.
    + rewrite exp_Ropp. assert (1000 < exp 8).
      { replace 8 with (INR 32 * (1 / 4)) by (cbn; lra). rewrite <- pow_exp.
        apply Rlt_le_trans with ((1 + 1 / 4) ^ 32); [lra|]. apply pow_incr. split; [lra|apply exp_ineq1_le]. }
      apply Rlt_le_trans with (/ 1000); [apply Rinv_lt_contravar; nra|lra].
  - exfalso. pose proof (bound_later (rho Q * x0) (ratio Q) 0 k (ratio_gt1 Q HQ) P0 ltac:(lia)) as B.
    cbn [pow] in B. rewrite Rdiv_1 in B. lra.
Qed.
Print Assumptions C98_start_refuted.

Lemma sigma_8 : rho 8 * compute_xi_max 8 < 24 / 1000 /\ 0 < compute_xi_max 8.
Proof.
  pose proof rho_8 as [A B]. pose proof ratio_8 as [C D]. pose proof (xi_max_lt 8 ltac:(lia)) as X. split; [|lra].
  assert (compute_xi_max 8 <= 44 / 100).
  { unfold compute_xi_max. apply Rmax_lub; [|lra].
    replace (Rpower 2 (3 / 8)) with (ratio 8 ^ 3).
    - assert ((109 / 100) ^ 3 <= ratio 8 ^ 3) by (apply pow_incr; lra). apply div_le; lra.
    - unfold ratio. rewrite <- Rpower_pow by apply exp_pos. rewrite Rpower_mult. f_equal. cbn [INR]. field. }
  apply Rle_lt_trans with (532 / 10000 * (44 / 100)); [apply Rmult_le_compat; lra|lra].
Qed.
(** J = 2, Q = 8: nothing covers a quarter of the sampling rate.  J = 6, Q = 8: covered at 1/5, with a hole below r_psi. *)
Example C98_instance :
  (let l := anden_list 2 8 sigma0 r_psi in anden 2 8 sigma0 r_psi l /\ length l = 7%nat /\
     forall x s, In (x, s) l -> gabor x s (1 / 4) < 1 / 1000) /\
  (let l := anden_list 6 8 sigma0 r_psi in
     (forall w, 1 / 128 <= w <= 35 / 100 -> exists x s, In (x, s) l /\ 1 / 5 <= gabor x s w) /\
     exists w, 1 / 128 <= w <= 1 / 2 /\ forall x s, In (x, s) l -> gabor x s w < r_psi).
Proof.
  pose proof sigma_8 as [S8 X8]. pose proof rho_8 as [RL RU]. pose proof (xi_max_lt 8 ltac:(lia)) as X. split.
  - cbv zeta. pose proof (anden_list_ok 2 8 ltac:(lia) ltac:(lia)) as H. split; [exact H|].
    assert (P : powerRZ 2 2 = 4) by exact (eq_trans (eq_sym (pow_powerRZ 2 2)) (ltac:(lra) : 2 ^ 2 = 4)). split.
    + pose proof (anden_shape 2 8 _ ltac:(lia) ltac:(lia) H) as Hs. cbv zeta in Hs.
      assert (S2 : smin 2 = 25 / 1000) by (unfold smin, sigma0; rewrite P; lra). rewrite S2 in Hs.
      destruct Hs as [[_ ->]|(k & _ & [Hs _] & _)]; [unfold arith; now rewrite map_length, seq_length|exfalso].
      pose proof (bound_later (rho 8 * compute_xi_max 8) (ratio 8) 0 k (ratio_gt1 8 ltac:(lia)) ltac:(apply Rmult_lt_0_compat; lra) ltac:(lia)) as B.
      cbn [pow] in B. rewrite Rdiv_1 in B. lra.
    + intros x s Hin. eapply (C98_start_refuted 2 8 _ ltac:(lia) ltac:(lia) H); [|exact Hin|].
      * rewrite sigma_rho by lia. unfold sigma0. rewrite P. lra.
      * rewrite P. lra.
  - cbv zeta. pose proof (anden_list_ok 6 8 ltac:(lia) ltac:(lia)) as H.
    assert (P : powerRZ 2 6 = 64) by exact (eq_trans (eq_sym (pow_powerRZ 2 6)) (ltac:(lra) : 2 ^ 6 = 64)).
    assert (Hb : sigma0 / powerRZ 2 6 < compute_sigma_psi (compute_xi_max 8) 8 r_psi).
    { rewrite sigma_rho by lia. unfold sigma0. rewrite P. apply Rlt_le_trans with (512 / 10000 * (35 / 100)); [lra|].
      apply Rmult_le_compat; lra. }
    split.
    + intros w Hw. apply (C98_coverage_partial 6 8 _ ltac:(lia) ltac:(lia) H Hb). rewrite P. lra.
    + destruct (C98_low_frequency_refuted 6 8 _ ltac:(lia) ltac:(lia) H Hb) as (w & W & W3 & _ & HH).
      rewrite P in W3. specialize (W3 ltac:(lia)). exists w. split; [lra|exact HH].
Qed.

(** * Number of periods *)
Definition eps : R := 1 / 10000000.
Lemma Rceil_spec x : x <= IZR (Rceil x) < x + 1.
Proof. unfold Rceil. rewrite opp_IZR. destruct (base_Int_part (- x)) as [A B]. lra. Qed.
Lemma eps_exp : exp (- (- ln eps)) = eps.
Proof. rewrite Ropp_involutive. apply exp_ln. unfold eps. lra. Qed.

(** The integer returned is at least 2, makes both terms of the Morlet wavelet smaller than 1e-7 at the two ends of the
    interval [1-P, P], and is the least positive integer to do so. *)
Theorem C99_periods : forall sigma, 0 < sigma -> let P := adaptive_choice_P sigma in
  (2 <= P)%Z /\
  gabor 0 sigma (IZR (1 - P)) <= eps /\
  (forall xi, 0 <= xi <= 1 -> gabor xi sigma (IZR P) <= eps /\ gabor xi sigma (IZR (1 - P)) <= eps) /\
  (forall P', (1 <= P')%Z -> gabor 0 sigma (IZR (1 - P')) <= eps -> (P <= P')%Z).
Proof.
  intros sigma H P. set (L := - ln eps).
  assert (HL : 0 < L) by (unfold L, eps; pose proof ln_tiny; lra).
  set (v := sqrt (2 * sigma ^ 2 * L)).
  assert (S2 : 0 < sigma ^ 2) by (apply pow_lt; exact H).
  assert (V2 : v ^ 2 = 2 * sigma ^ 2 * L) by (unfold v; apply pow2_sqrt; nra).
  assert (V0 : 0 < v) by (apply sqrt_lt_R0; nra).
  assert (EP : P = Rceil (v + 1)).
  { unfold P, adaptive_choice_P, v, L, eps. do 3 f_equal. ring. }
  pose proof (Rceil_spec (v + 1)) as [C1 C2]. rewrite <- EP in C1, C2.
  assert (K : forall d, v <= d -> forall xi w, (w - xi) = d \/ w - xi = - d -> gabor xi sigma w <= eps).
  { intros d Hd xi w Hw. rewrite <- eps_exp. apply gabor_le; [exact H|]. fold L. rewrite <- V2.
    replace ((w - xi) ^ 2) with (d ^ 2) by (destruct Hw as [-> | ->]; ring). apply pow_incr. lra. }
  split; [apply adaptive_ge2; exact H|]. split; [|split].
  - apply (K (IZR P - 1)); [lra|]. right. rewrite minus_IZR. ring.
  - intros xi Hx. split.
    + apply (K (IZR P - xi)); [lra|]. left. reflexivity.
    + apply (K (IZR P - 1 + xi)); [lra|]. right. rewrite minus_IZR. ring.
  - intros P' HP Hg. apply Z.nlt_ge. intros Hlt. assert (Hl : IZR P' <= IZR P - 1) by (rewrite <- minus_IZR; apply IZR_le; lia).
    assert (P1 : 1 <= IZR P') by now apply IZR_le.
    revert Hg. apply Rlt_not_le. rewrite <- eps_exp. unfold gabor. apply exp_increasing. fold L.
    apply Rmult_lt_reg_r with (2 * sigma ^ 2); [lra|].
    replace (- (IZR (1 - P') - 0) ^ 2 / (2 * sigma ^ 2) * (2 * sigma ^ 2)) with (- (IZR P' - 1) ^ 2)
      by (rewrite minus_IZR; field; lra).
    assert ((IZR P' - 1) ^ 2 < v ^ 2).
    { rewrite <- !Rsqr_pow2. apply Rsqr_incrst_1; lra. }
    lra.
Qed.
Print Assumptions C99_periods.

Lemma ln_eps_bound : - ln eps <= 168 / 10.
Proof.
  unfold eps. replace (1 / 10000000) with (/ 10000000) by lra. rewrite ln_Rinv by lra. rewrite Ropp_involutive.
  apply Rle_trans with (ln (2 ^ 24)).
  - destruct (Req_dec 10000000 (2 ^ 24)) as [E|E]; [rewrite E; lra|]. left. apply ln_increasing; lra.
  - rewrite ln_pow by lra. pose proof ln2_upper. replace (INR 24) with 24 by (cbn; lra). lra.
Qed.
Lemma adaptive_2 sigma : 0 < sigma <= 1 / 7 -> adaptive_choice_P sigma = 2%Z.
Proof.
  intros H. pose proof (adaptive_ge2 sigma (proj1 H)) as G. apply Z.le_antisymm; [|exact G].
  destruct (C99_periods sigma (proj1 H)) as (_ & _ & _ & L). apply L; [lia|].
  rewrite <- eps_exp. apply gabor_le; [lra|]. pose proof ln_eps_bound.
  assert (sigma ^ 2 <= (1 / 7) ^ 2) by (apply pow_incr; lra). pose proof (pow_lt sigma 2 (proj1 H)).
  assert (0 <= - ln eps) by (unfold eps; pose proof ln_tiny; lra).
  replace ((IZR (1 - 2) - 0) ^ 2) with 1 by (cbn; lra). nra.
Qed.
Lemma bank_sigma J Q l x s : (0 <= J)%Z -> (1 <= Q)%Z -> anden J Q sigma0 r_psi l -> In (x, s) l -> 0 < x < 1 / 2 /\ 0 < s <= 1 / 7.
Proof.
  intros HJ HQ H Hin. destruct (anden_elem J Q l (x, s) HJ HQ H Hin) as [Hx Es]. cbn [fst snd] in *. split; [exact Hx|].
  pose proof (bandwidth_pos J Q x HJ) as Bp. rewrite Es. split; [exact Bp|]. unfold bandwidth. apply Rmax_lub.
  2:{ pose proof (smin_pos J HJ). lra. }
  pose proof (rho_pos Q HQ) as R0.
  destruct (Z.eq_dec Q 1) as [-> |Hq].
  - pose proof rho_1 as R1.
    assert (x <= 35 / 100).
    { rewrite (anden_unique _ _ _ _ _ _ H (anden_Q1 J HJ)) in Hin. apply in_map_iff in Hin as (k & Ek & _).
      apply pair_equal_spec in Ek as [<- _].
      pose proof (bound_later (35 / 100) 2 0 k ltac:(lra) ltac:(lra) ltac:(lia)) as B. cbn [pow] in B. rewrite Rdiv_1 in B. exact B. }
    apply Rle_trans with (4066 / 10000 * (35 / 100)); [apply Rmult_le_compat; lra|lra].
  - assert (Q2 : 2 <= IZR Q) by (apply IZR_le; lia). pose proof (rho_Q Q ltac:(lia)) as RQ.
    assert (2 * 2 * rho Q <= 1) by (eapply Rle_trans; [|exact RQ]; apply Rmult_le_compat_r; lra).
    apply Rle_trans with (1 / 4 * (1 / 2)); [apply Rmult_le_compat; lra|lra].
Qed.

(** The band-pass filters of every wavelet family and every low-pass filter (bandwidth sigma0/T with T >= 1, and the
    second-order or frequential ones alike) are sampled over exactly three periods: the cap at 5 is never reached. *)
Theorem C99_three_periods : forall J Q l, (0 <= J)%Z -> (1 <= Q)%Z -> anden J Q sigma0 r_psi l ->
  (forall x s, In (x, s) l -> adaptive_choice_P s = 2%Z) /\
  (forall T, 1 <= T -> adaptive_choice_P (sigma0 / T) = 2%Z).
Proof.
  intros J Q l HJ HQ H. split.
  - intros x s Hin. apply adaptive_2. now destruct (bank_sigma J Q l x s HJ HQ H Hin).
  - intros T HT. apply adaptive_2. unfold sigma0. split; [apply Rdiv_lt_0_compat; lra|]. apply div_le; lra.
Qed.
Print Assumptions C99_three_periods.

(** The Gaussian and its [2 M] nearest images. *)
Definition images (M : nat) (xi sigma w : R) : R :=
  gabor xi sigma w + rsum M (fun p => gabor xi sigma (w + INR (S p)) + gabor xi sigma (w - INR (S p))).

Lemma image_small xi sigma w p : 0 < sigma <= 1 / 7 -> 0 <= xi <= 1 -> 0 <= w <= 1 ->
  gabor xi sigma (w + INR (S (S p))) + gabor xi sigma (w - INR (S (S p))) <= 2 * (eps * (1 / 3) ^ p).
Proof.
  intros Hs Hx Hw.
  assert (K : forall y, INR (S p) <= Rabs (y - xi) -> gabor xi sigma y <= eps * (1 / 3) ^ p).
  { intros y Hy. apply Rle_trans with (exp (- (- ln eps + INR p * ln 3))).
    - apply gabor_le; [lra|]. rewrite <- (pow2_abs (y - xi)).
      apply Rle_trans with (INR (S p) ^ 2); [|apply pow_incr; split; [apply pos_INR|exact Hy]].
      assert (sigma ^ 2 <= (1 / 7) ^ 2) by (apply pow_incr; lra). pose proof ln_eps_bound as LB.
      assert (L3 : 0 < ln 3 <= 2).
      { split; [rewrite <- ln_1; apply ln_increasing; lra|]. left. apply exp_lt_inv. rewrite exp_ln by lra.
        pose proof (exp_ineq1 2 ltac:(lra)). lra. }
      assert (0 < - ln eps) by (unfold eps; pose proof ln_tiny; lra).
      pose proof (pow_lt sigma 2 (proj1 Hs)). pose proof (pos_INR p) as Pp. rewrite S_INR.
      assert (B : - ln eps + INR p * ln 3 <= 168 / 10 + 2 * INR p) by (assert (INR p * ln 3 <= INR p * 2) by (apply Rmult_le_compat_l; lra); lra).
      assert (B0 : 0 <= - ln eps + INR p * ln 3) by (assert (0 <= INR p * ln 3) by (apply Rmult_le_pos; lra); lra).
      apply Rle_trans with (2 * (1 / 7) ^ 2 * (168 / 10 + 2 * INR p)); [|nra].
      apply Rmult_le_compat; [lra|exact B0|lra|exact B].
    - right. rewrite Ropp_plus_distr, exp_plus, eps_exp. f_equal.
      rewrite exp_Ropp, <- ln_pow, exp_ln by (try apply pow_lt; lra).
      replace (1 / 3) with (/ 3) by lra. now rewrite pow_inv. }
  pose proof (pos_INR p) as Pp. rewrite !S_INR in *.
  assert (gabor xi sigma (w + (INR p + 1 + 1)) <= eps * (1 / 3) ^ p) by (apply K; rewrite Rabs_pos_eq; lra).
  assert (gabor xi sigma (w - (INR p + 1 + 1)) <= eps * (1 / 3) ^ p) by (apply K; rewrite Rabs_left1; lra).
  lra.
Qed.
Lemma images_tail xi sigma w M : 0 < sigma <= 1 / 7 -> 0 <= xi <= 1 -> 0 <= w <= 1 ->
  images 1 xi sigma w <= images (S M) xi sigma w <= images 1 xi sigma w + 3 * eps * (1 - (1 / 3) ^ M).
Proof.
  intros Hs Hx Hw. induction M as [|M IH].
  - cbn [pow]. lra.
  - assert (E : images (S (S M)) xi sigma w = images (S M) xi sigma w + (gabor xi sigma (w + INR (S (S M))) + gabor xi sigma (w - INR (S (S M))))).
    { unfold images. cbn [rsum]. ring. }
    rewrite E. pose proof (image_small xi sigma w M Hs Hx Hw) as I.
    assert (0 < gabor xi sigma (w + INR (S (S M)))) by apply exp_pos.
    assert (0 < gabor xi sigma (w - INR (S (S M)))) by apply exp_pos.
    cbn [pow]. lra.
Qed.

(** Summing only three periods loses less than 3e-7 of the true periodised Gaussians, however many more are summed. *)
Theorem C99_periodised : forall N sigma M i, (0 < N)%nat -> (i < N)%nat -> 0 < sigma <= 1 / 7 ->
  Rabs (3 * morlet_raw N None sigma i - images (S M) 0 sigma (INR i / INR N)) <= 3 * eps /\
  forall xi, 0 < xi <= 1 -> exists G L : nat -> R,
    (forall k, (k < N)%nat -> morlet_raw N (Some xi) sigma k = G k - G 0%nat / L 0%nat * L k) /\
    Rabs (3 * G i - images (S M) xi sigma (INR i / INR N)) <= 3 * eps /\
    Rabs (3 * L i - images (S M) 0 sigma (INR i / INR N)) <= 3 * eps.
Proof.
  intros N sigma M i HN Hi Hs.
  assert (EP : adaptive_choice_P sigma = 2%Z) by (apply adaptive_2; lra).
  assert (EK : n_periods sigma = 3%nat) by (unfold n_periods; now rewrite EP).
  assert (W : 0 <= INR i / INR N <= 1).
  { assert (0 < INR N) by now apply lt_0_INR. pose proof (pos_INR i). split; [apply le_div; lra|].
    apply div_le; [lra|]. rewrite Rmult_1_l. apply le_INR. lia. }
  assert (EG : forall x, G N sigma x i = images 1 x sigma (INR i / INR N)).
  { intros x. unfold G. rewrite EK. unfold images, gabor. cbn [rsum]. unfold fr. rewrite EP.
    replace (IZR (Z.of_nat 0 + 1 - Z.min 2 5)) with (-1) by reflexivity.
    replace (IZR (Z.of_nat 1 + 1 - Z.min 2 5)) with 0 by reflexivity.
    replace (IZR (Z.of_nat 2 + 1 - Z.min 2 5)) with 1 by reflexivity.
    cbn [INR]. rewrite !Rplus_0_l.
    replace (-1 + INR i / INR N) with (INR i / INR N - 1) by ring.
    replace (1 + INR i / INR N) with (INR i / INR N + 1) by ring. ring. }
  assert (A : forall x, 0 <= x <= 1 -> Rabs (G N sigma x i - images (S M) x sigma (INR i / INR N)) <= 3 * eps).
  { intros x Hx. rewrite EG. pose proof (images_tail x sigma (INR i / INR N) M Hs Hx W) as [T1 T2].
    assert (0 < (1 / 3) ^ M) by (apply pow_lt; lra). assert (0 < eps) by (unfold eps; lra).
    rewrite Rabs_left1 by lra. nra. }
  assert (K3 : INR (n_periods sigma) = 3) by (rewrite EK; cbn; lra).
  split.
  - rewrite raw_low by (lra || lia). rewrite K3. replace (3 * (G N sigma 0 i / 3)) with (G N sigma 0 i) by field. apply A. lra.
  - intros xi Hx. exists (fun k => G N sigma xi k / 3), (fun k => G N sigma 0 k / 3). split; [|split].
    + intros k Hk. rewrite raw_band by (lra || lia). rewrite K3. pose proof (G_pos N sigma ltac:(lra || lia) ltac:(lra) 0 0). field. lra.
    + replace (3 * (G N sigma xi i / 3)) with (G N sigma xi i) by field. apply A. lra.
    + replace (3 * (G N sigma 0 i / 3)) with (G N sigma 0 i) by field. apply A. lra.
Qed.
Print Assumptions C99_periodised.

(** The frequential wavelets of negative frequency (spin, filter_bank.py:306-311) escape the premise 0 <= xi <= 1: at the
    lower end of the interval [1-P, P] their response is not below 1e-7. *)
Theorem C99_spin_refuted : forall J l, (0 <= J)%Z -> anden J 1 sigma0 r_psi l ->
  exists x s, In (x, s) (spin l) /\ x < 0 /\ 1 / 1000000 < gabor x s (IZR (1 - adaptive_choice_P s)).
Proof.
  intros J l HJ H. pose proof rho_1 as [R1 R2].
  assert (Hin : In (35 / 100, rho 1 * (35 / 100)) l).
  { rewrite (anden_unique _ _ _ _ _ _ H (anden_Q1 J HJ)). cbn [seq map]. left. cbn [pow]. now rewrite Rdiv_1. }
  exists (- (35 / 100)), (rho 1 * (35 / 100)). split; [|split; [lra|]].
  - unfold spin. apply in_or_app. right. apply in_map_iff. exists (35 / 100, rho 1 * (35 / 100)). now split.
  - rewrite (proj1 (C99_three_periods J 1 l HJ ltac:(lia) H) _ _ Hin).
    replace (IZR (1 - 2)) with (-1) by reflexivity.
    apply Rlt_le_trans with (exp (- (11))).
    + apply Rlt_le_trans with (/ 3 ^ 11); [lra|]. rewrite exp_Ropp. apply Rinv_le_contravar; [apply exp_pos|].
      replace 11 with (INR 11 * 1) by (cbn; lra). rewrite <- pow_exp. apply pow_incr. split; [left; apply exp_pos|].
      apply exp_le_3.
    + apply (gabor_ge _ _ _ 11); [lra|].
      assert ((3968 / 10000 * (35 / 100)) ^ 2 <= (rho 1 * (35 / 100)) ^ 2) by (apply pow_incr; lra). lra.
Qed.
Print Assumptions C99_spin_refuted.
Example C99_instance : adaptive_choice_P (sigma0 / 4) = 2%Z /\
  (forall i, (i < 8)%nat -> Rabs (3 * morlet_raw 8 None (sigma0 / 4) i - images 10 0 (sigma0 / 4) (INR i / 8)) <= 3 * eps) /\
  exists x s, In (x, s) (spin (anden_list 3 1 sigma0 r_psi)) /\ x < 0 /\ 1 / 1000000 < gabor x s (IZR (1 - adaptive_choice_P s)).
Proof.
  split; [|split].
  - apply (C99_three_periods 0 1 _ ltac:(lia) ltac:(lia) (anden_Q1 0 ltac:(lia))). lra.
  - intros i Hi. replace 8 with (INR 8) by (cbn; lra). apply (C99_periodised 8 (sigma0 / 4) 9 i); [lia|exact Hi|unfold sigma0; lra].
  - apply (C99_spin_refuted 3); [lia|]. apply anden_list_ok; lia.
Qed.
