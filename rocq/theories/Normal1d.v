(** The normaliser of morlet_1d does not vanish: every wavelet of Scattering1D is non-zero at the Nyquist frequency. *)
From Coq Require Import String Reals ZArith QArith List Bool Lia Lra Psatz.
From Coquelicot Require Import Complex.
From Verif Require Import Base BaseProofs NdArray Backend Core1d Utils1d Utils1dProofs Frontend1d ComplexOps FilterBank1d
  FilterBank1dProofs Factory1d FactoryProofs Construct1d Shape1d PropFilters1d PropShapes1d Dft Conv1d Rows1d Value1d Tabulated1d PropNumerics1d Invariance1d Norm1d PropFilterShape1d.
Import ListNotations.
Local Open Scope R_scope.

Lemma G_three N sigma x i : (0 < N)%nat -> 0 < sigma <= 1 / 7 -> let w := INR i / INR N in
  G N sigma x i = exp (- ((w - 1 - x) ^ 2) / (2 * sigma ^ 2)) + exp (- ((w - x) ^ 2) / (2 * sigma ^ 2)) + exp (- ((w + 1 - x) ^ 2) / (2 * sigma ^ 2)).
Proof.
  intros HN Hs w. unfold G, n_periods. rewrite (adaptive_2 sigma Hs). change (Z.to_nat (2 * Z.min 2 5 - 1)) with 3%nat. cbn [rsum].
  unfold fr. rewrite (adaptive_2 sigma Hs). fold w.
  replace (IZR (Z.of_nat 0 + 1 - Z.min 2 5) + w) with (w - 1) by (cbn; lra).
  replace (IZR (Z.of_nat 1 + 1 - Z.min 2 5) + w) with w by (cbn; lra).
  replace (IZR (Z.of_nat 2 + 1 - Z.min 2 5) + w) with (w + 1) by (cbn; lra). lra.
Qed.
(** At frequency 1/2 the Gabor term dominates the correction that removes the mean. *)
Lemma nyquist_pos N sigma x : (0 < N)%nat -> 0 < sigma <= 1 / 7 -> 0 < x < 1 / 2 ->
  0 < morlet_raw (2 * N) (Some x) sigma N.
Proof.
  intros HN Hs Hx. rewrite raw_band by (lia || lra). pose proof (K_pos (2 * N) sigma ltac:(lia) (proj1 Hs)) as KP. apply Rdiv_lt_0_compat; [|exact KP].
  assert (NP : 0 < INR N) by now apply lt_0_INR.
  rewrite !G_three by (lia || lra). replace (INR N / INR (2 * N)) with (1 / 2) by (rewrite mult_INR; cbn [INR]; field; lra).
  replace (INR 0 / INR (2 * N)) with 0 by (cbn [INR]; unfold Rdiv; ring).
  assert (S2 : 0 < sigma ^ 2 <= 1 / 49). { split; [apply pow_lt; lra|]. replace (1 / 49) with ((1 / 7) ^ 2) by lra. apply pow_incr. lra. }
  set (c := / (2 * sigma ^ 2)).
  assert (Hc : 24 <= c). { unfold c. apply Rmult_le_reg_r with (2 * sigma ^ 2); [lra|]. rewrite Rinv_l by lra. lra. }
  set (y := exp (c * x)). set (e := exp (- c)). set (h := exp (- (c / 4))). set (k := exp (- (c * x ^ 2))).
  assert (Hy : 1 < y). { unfold y. rewrite <- exp_0. apply exp_increasing. nra. }
  assert (He : 0 < e <= / 24). { split; [apply exp_pos|]. unfold e. rewrite exp_Ropp. apply Rinv_le_contravar; [lra|]. pose proof (exp_ge1 c). lra. }
  assert (Hey : e * y * y < 1).
  { unfold e, y. rewrite <- !exp_plus. replace 1 with (exp 0) by apply exp_0. apply exp_increasing. nra. }
  assert (Yi : exp (- (c * x)) = / y) by (unfold y; apply exp_Ropp).
  assert (Hh : 0 < h) by apply exp_pos. assert (Hk : 0 < k) by apply exp_pos.
  assert (E : forall z a, - (z ^ 2) / (2 * sigma ^ 2) = a -> exp (- (z ^ 2) / (2 * sigma ^ 2)) = exp a) by (intros z a ->; reflexivity).
  rewrite (E (1 / 2 - 1 - x) (- (c * x ^ 2) + (- (c / 4) + - (c * x)))) by (unfold c; field; lra).
  rewrite (E (1 / 2 - x) (- (c * x ^ 2) + (- (c / 4) + c * x))) by (unfold c; field; lra).
  rewrite (E (1 / 2 + 1 - x) (- (c * x ^ 2) + (- (c / 4) + - c + - c + (c * x + (c * x + c * x))))) by (unfold c; field; lra).
  rewrite (E (0 - 1 - x) (- (c * x ^ 2) + (- c + (- (c * x) + - (c * x))))) by (unfold c; field; lra).
  rewrite (E (0 - x) (- (c * x ^ 2))) by (unfold c; field; lra).
  rewrite (E (0 + 1 - x) (- (c * x ^ 2) + (- c + (c * x + c * x)))) by (unfold c; field; lra).
  rewrite (E (0 - 1 - 0) (- c)) by (unfold c; field; lra).
  rewrite (E (0 - 0) 0) by (unfold c; field; lra).
  rewrite (E (0 + 1 - 0) (- c)) by (unfold c; field; lra).
  rewrite (E (1 / 2 - 1 - 0) (- (c / 4))) by (unfold c; field; lra).
  rewrite (E (1 / 2 - 0) (- (c / 4))) by (unfold c; field; lra).
  rewrite (E (1 / 2 + 1 - 0) (- (c / 4) + - c + - c)) by (unfold c; field; lra).
  rewrite !exp_plus, exp_0, Yi. fold y e h k.
  replace (k * (h * / y) + k * (h * y) + k * (h * e * e * (y * (y * y))) -
     (k * (e * (/ y * / y)) + k + k * (e * (y * y))) / (e + 1 + e) * (h + h + h * e * e))
    with (k * h / (1 + 2 * e) * ((/ y + y + e ^ 2 * y ^ 3) * (1 + 2 * e) - (1 + e * (/ y ^ 2 + y ^ 2)) * (2 + e ^ 2))) by (field; lra).
  apply Rmult_lt_0_compat; [apply Rdiv_lt_0_compat; nra|].
  set (s := / y + y). assert (Hs2 : 2 < s). { unfold s. assert (s - 2 = (y - 1) ^ 2 / y) by (unfold s; field; lra). assert (0 < (y - 1) ^ 2 / y) by (apply Rdiv_lt_0_compat; [apply pow_lt; lra|lra]). unfold s in *. lra. }
  replace (/ y ^ 2 + y ^ 2) with (s ^ 2 - 2) by (unfold s; field; lra).
  replace ((s + e ^ 2 * y ^ 3) * (1 + 2 * e) - (1 + e * (s ^ 2 - 2)) * (2 + e ^ 2))
    with ((s - 2) * ((1 + 2 * e) - e * (s + 2) * (2 + e ^ 2)) + e ^ 2 * (y ^ 3 - 1) * (1 + 2 * e)) by ring.
  assert (He2 : 0 < e ^ 2 <= 1 / 10) by nra.
  assert (Y3 : 1 < y ^ 3). { replace (y ^ 3) with (y * y * y) by ring. nra. }
  assert (Yinv : 0 < / y < 1). { split; [apply Rinv_0_lt_compat; lra|]. rewrite <- Rinv_1. apply Rinv_lt_contravar; lra. }
  assert (Eyy : e * y <= 21 / 100). { assert ((e * y) * (e * y) <= / 24) by nra. nra. }
  assert (Es : e * (s + 2) <= 4 / 10) by (unfold s; nra).
  apply Rplus_lt_le_0_compat; [|apply Rmult_le_pos; [apply Rmult_le_pos|]; lra].
  apply Rmult_lt_0_compat; [lra|]. nra.
Qed.

(** The padded length of an object built for at least two samples is even. *)
Lemma padded_even support p out s N : constructed support p out s N -> (2 <= N)%Z -> exists M, (0 < M)%nat /\ padded_length s N = (2 * M)%nat.
Proof.
  intros (Hsup & H & EN & HN & HJ & Hmo) H2. apply new_inv in H. destruct H as (b & Qs & T & l2T & phi & psi1s & psi2s & Hb & _ & _ & _ & _ & _ & Es).
  assert (EbN : b_N b = N). { destruct (build_inv _ _ _ Hb) as (st & T' & l & r & EN' & _). congruence. }
  destruct (build_plan support p b Hsup Hb) as ((k & Hk & Ek) & B1 & B2 & B3 & B4 & _); [lia|]. rewrite EbN in *.
  unfold padded_length. rewrite Es. cbn [s_pad_left s_pad_right]. rewrite B4, Ek.
  assert (K0 : k <> 0%Z) by (intros ->; cbn in Ek; lia). exists (Z.to_nat (2 ^ (k - 1))).
  pose proof (Z.pow_pos_nonneg 2 (k - 1) ltac:(lia) ltac:(lia)). replace (2 ^ k)%Z with (2 * 2 ^ (k - 1))%Z by (rewrite <- Z.pow_succ_r by lia; f_equal; lia).
  split; lia.
Qed.
Lemma bank_elem support p out s N f : constructed support p out s N -> In f (s_psi1 s) \/ In f (s_psi2 s) -> 0 < f_xi f < 1 / 2 /\ 0 < f_sigma f <= 1 / 7.
Proof.
  intros (Hsup & H & EN & HN & HJ & Hmo) Hf. destruct (new_Q _ _ _ _ H) as (q1 & q2 & EQ & Hq1 & Hq2).
  destruct (new_banks _ _ _ _ H _ _ EQ) as (P1 & P2 & _).
  destruct Hf as [Hf|Hf]; apply (in_map params_of) in Hf; [rewrite P1 in Hf|rewrite P2 in Hf].
  - apply (bank_sigma _ _ _ _ _ HJ Hq1 (anden_list_ok _ _ HJ Hq1) Hf).
  - apply (bank_sigma _ _ _ _ _ HJ Hq2 (anden_list_ok _ _ HJ Hq2) Hf).
Qed.
(** Every wavelet of an object built for at least two samples. *)
Lemma all_normalised support p out s N : constructed support p out s N -> (2 <= N)%Z ->
  forall f, In f (s_psi1 s) \/ In f (s_psi2 s) -> normalised (padded_length s N) f.
Proof.
  intros Hc H2 f Hf. destruct (padded_even _ _ _ _ _ Hc H2) as (M & HM & ->). destruct (bank_elem _ _ _ _ _ _ Hc Hf) as [Hx Hs].
  unfold normalised. apply Rgt_not_eq. apply (l1_norm_pos (2 * M) ltac:(lia) _ M); [lia|].
  apply Rgt_not_eq. now apply nyquist_pos.
Qed.
