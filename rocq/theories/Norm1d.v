(** Mean and l1 norm of the filters of morlet_1d. *)
From Coq Require Import String Reals ZArith QArith List Bool Lia Lra.
From Coquelicot Require Import Complex.
From Verif Require Import Base BaseProofs NdArray Backend Core1d Utils1d Utils1dProofs Frontend1d ComplexOps FilterBank1d
  FilterBank1dProofs Construct1d Shape1d PropFilters1d PropShapes1d Dft Conv1d Rows1d Value1d Tabulated1d PropNumerics1d Invariance1d.
Import ListNotations.
Local Open Scope R_scope.

(** ** Number of periods *)
Lemma Rceil_gt x n : IZR n < x -> (n + 1 <= Rceil x)%Z.
Proof.
  intros H. unfold Rceil. destruct (base_Int_part (- x)) as [A _].
  assert (Int_part (- x) < - n)%Z; [|lia]. apply lt_IZR. rewrite opp_IZR. lra.
Qed.
Lemma ln_tiny : ln (1 / 10000000) < 0.
Proof. rewrite <- ln_1. apply ln_increasing; lra. Qed.
Lemma adaptive_ge2 sigma : 0 < sigma -> (2 <= adaptive_choice_P sigma)%Z.
Proof.
  intros H. unfold adaptive_choice_P. apply (Rceil_gt _ 1).
  assert (0 < sqrt (-2 * sigma ^ 2 * ln (1 / 10000000))); [|lra].
  apply sqrt_lt_R0. pose proof ln_tiny. assert (0 < sigma ^ 2) by (apply pow_lt; exact H). nra.
Qed.

Section Filter.
Variables (N : nat) (sigma : R).
Hypotheses (HN : (0 < N)%nat) (Hs : 0 < sigma).
Let P : Z := Z.min (adaptive_choice_P sigma) 5.
Definition n_periods : nat := Z.to_nat (2 * Z.min (adaptive_choice_P sigma) 5 - 1).
Notation K := n_periods.

Lemma P_range : (2 <= P <= 5)%Z.
Proof. unfold P. pose proof (adaptive_ge2 sigma Hs). lia. Qed.
Lemma K_range : (3 <= K <= 9)%nat.
Proof. unfold n_periods. pose proof P_range. unfold P in *. lia. Qed.
Lemma N_pos : 0 < INR N. Proof. now apply lt_0_INR. Qed.
Lemma K_pos : 0 < INR K. Proof. apply lt_0_INR. pose proof K_range. lia. Qed.

(** The sampled frequency of period [p] and index [i]. *)
Definition fr (p i : nat) : R := IZR (Z.of_nat p + 1 - P) + INR i / INR N.
Lemma freqs_fr p i : freqs P N (p * N + i) = fr p i.
Proof.
  unfold freqs, fr. pose proof N_pos. rewrite !INR_IZR_INZ in *.
  replace ((1 - P) * Z.of_nat N + Z.of_nat (p * N + i))%Z with ((Z.of_nat p + 1 - P) * Z.of_nat N + Z.of_nat i)%Z by lia.
  rewrite plus_IZR, mult_IZR. field. lra.
Qed.
(** A Gaussian centred at [x], summed over the periods. *)
Definition G (x : R) (i : nat) : R := rsum K (fun p => exp (- ((fr p i - x) ^ 2) / (2 * sigma ^ 2))).

Lemma low_G i : fold_mean P N (fun i => exp (- ((if Z.eqb P 1 then fftfreq N else freqs P N) i ^ 2) / (2 * sigma ^ 2))) i = G 0 i / INR K.
Proof.
  unfold fold_mean, G. fold K. pose proof P_range. destruct (Z.eqb_spec P 1) as [E|_]; [lia|].
  f_equal. apply rsum_ext. intros p Hp. rewrite freqs_fr. f_equal. f_equal. f_equal. f_equal. lra.
Qed.
Lemma gabor_G x i : fold_mean P N (fun i => exp (- ((freqs P N i - x) ^ 2) / (2 * sigma ^ 2))) i = G x i / INR K.
Proof. unfold fold_mean, G. fold K. f_equal. apply rsum_ext. intros p Hp. now rewrite freqs_fr. Qed.
Lemma G_pos x i : 0 < G x i.
Proof.
  pose proof K_range. unfold G. eapply Rlt_le_trans; [apply exp_pos|].
  apply (rsum_term K (fun p => exp (- ((fr p i - x) ^ 2) / (2 * sigma ^ 2))) 0%nat); [|lia].
  intros j _. left. apply exp_pos.
Qed.

Lemma raw_low i : morlet_raw N None sigma i = G 0 i / INR K.
Proof. unfold morlet_raw. apply low_G. Qed.
Lemma raw_band x i : x <> 0 -> morlet_raw N (Some x) sigma i = (G x i - G x 0 / G 0 0 * G 0 i) / INR K.
Proof.
  intros Hx. unfold morlet_raw. destruct (Req_EM_T x 0) as [E|_]; [contradiction|].
  fold P. rewrite !low_G, !gabor_G. pose proof K_pos. pose proof (G_pos 0 0). field. lra.
Qed.

(** The band-pass filter vanishes at frequency 0. *)
Lemma raw_zero_mean x : x <> 0 -> morlet_raw N (Some x) sigma 0 = 0.
Proof. intros Hx. rewrite raw_band by exact Hx. pose proof (G_pos 0 0). pose proof K_pos. field. lra. Qed.

Lemma morlet_data_at xi i : (i < N)%nat -> at_ (nd_data (morlet_1d N xi sigma)) i = RtoC (morlet_at N xi sigma i).
Proof. intros H. cbn [nd_data morlet_1d]. now rewrite at_map_seq. Qed.
Lemma morlet_data_length xi : List.length (nd_data (morlet_1d N xi sigma)) = N.
Proof. cbn. now rewrite map_length, seq_length. Qed.

Lemma l1_norm_nonneg f : 0 <= l1_norm N f.
Proof. apply rsum_pos. intros; apply Cmod_ge_0. Qed.
(** Dividing by the normaliser makes the l1 norm of the impulse response 1. *)
Lemma l1_one xi : l1_norm N (morlet_raw N xi sigma) <> 0 -> l1 (idft (nd_data (morlet_1d N xi sigma))) = 1.
Proof.
  intros Hne. unfold l1. rewrite idft_length, morlet_data_length.
  set (A := l1_norm N (morlet_raw N xi sigma)) in *. pose proof (l1_norm_nonneg (morlet_raw N xi sigma)) as A0. fold A in A0.
  rewrite (csum_ext _ _ (fun n => RtoC (Cmod (idft_at N (fun k => RtoC (morlet_raw N xi sigma k)) (Z.of_nat n)) / A))).
  - rewrite rsum_csum. cbn [fst RtoC]. rewrite rsum_div. change (rsum N _) with A. field. exact Hne.
  - intros n Hn. f_equal. rewrite at_idft by now rewrite morlet_data_length. rewrite morlet_data_length.
    rewrite (idft_at_ext N _ (fun k => RtoC (/ A) * RtoC (morlet_raw N xi sigma k))%C).
    + unfold idft_at. rewrite (csum_ext _ _ (fun k => RtoC (/ A) * (RtoC (morlet_raw N xi sigma k) * root N (Z.of_nat k * Z.of_nat n)))%C) by (intros; ring).
      rewrite csum_scal. unfold Cdiv. rewrite <- Cmult_assoc, Cmod_mult, Cmod_R, Rabs_right; [unfold Rdiv; ring|].
      apply Rle_ge. left. apply Rinv_0_lt_compat. lra.
    + intros k Hk. rewrite morlet_data_at by exact Hk. unfold morlet_at. fold A. rewrite <- RtoC_mult. f_equal. unfold Rdiv. ring.
Qed.

(** A filter with a non-zero frequency response has a non-zero normaliser. *)
Lemma l1_norm_pos f k : (k < N)%nat -> f k <> 0 -> 0 < l1_norm N f.
Proof.
  intros Hk Hf. destruct (Rle_lt_or_eq_dec _ _ (l1_norm_nonneg f)) as [L|E]; [exact L|exfalso].
  assert (Z0 : forall n, (n < N)%nat -> idft_at N (fun k => RtoC (f k)) (Z.of_nat n) = RtoC 0).
  { intros n Hn. apply Cmod_eq_0. apply Rle_antisym; [|apply Cmod_ge_0]. rewrite E.
    unfold l1_norm. apply (rsum_term N (fun n => Cmod (idft_at N (fun k => RtoC (f k)) (Z.of_nat n)))); [|exact Hn].
    intros; apply Cmod_ge_0. }
  apply Hf. apply RtoC_inj. rewrite <- (dft_idft N HN (fun k => RtoC (f k)) k Hk). unfold dft_at.
  apply csum_0. intros n Hn. rewrite Z0 by exact Hn. ring.
Qed.
Lemma low_normaliser : 0 < l1_norm N (morlet_raw N None sigma).
Proof.
  apply (l1_norm_pos _ 0 HN). rewrite raw_low. pose proof (G_pos 0 0). pose proof K_pos.
  apply Rgt_not_eq, Rdiv_lt_0_compat; lra.
Qed.

(** ** A sufficient condition for a non-zero wavelet *)
Lemma integer_gap (n : Z) w : 0 <= w <= 1 / 2 -> w ^ 2 <= (IZR n + w) ^ 2 /\ w ^ 2 <= (IZR n - w) ^ 2.
Proof.
  intros Hw. destruct (Z_le_gt_dec n 0) as [L|L].
  - destruct (Z.eq_dec n 0) as [->|]; [split; nra|]. assert (IZR n <= -1) by (apply IZR_le; lia). split; nra.
  - assert (1 <= IZR n) by (apply IZR_le; lia). split; nra.
Qed.
Lemma exp_pow x n : exp (INR n * x) = exp x ^ n.
Proof. induction n; [cbn; rewrite Rmult_0_l; apply exp_0|]. rewrite S_INR. cbn [pow]. rewrite <- IHn, <- exp_plus. f_equal. ring. Qed.
Lemma exp_ge1 x : 1 + x <= exp x.
Proof. destruct (Req_dec x 0) as [->|E]; [rewrite exp_0; lra|]. left. now apply exp_ineq1. Qed.
Lemma pow64 x : x ^ 64 = let a := x * x in let b := a * a in let c := b * b in let d := c * c in let e := d * d in e * e.
Proof. cbv zeta. cbn [pow]. ring. Qed.
Lemma exp_3 : exp (- (3)) <= 1 / 18.
Proof.
  rewrite exp_Ropp. assert (18 <= exp 3); [|apply Rmult_le_reg_r with (exp 3); [lra|]; rewrite Rinv_l by lra; lra].
  replace 3 with (INR 64 * (3 / 64)) by (cbn; lra). rewrite exp_pow.
  eapply Rle_trans; [|apply pow_incr; split; [|apply exp_ge1]; lra]. rewrite pow64. cbv zeta. lra.
Qed.
Lemma exp_19 : exp (-(19 / 10)) <= 1 / 6.
Proof.
  rewrite exp_Ropp. assert (6 <= exp (19 / 10)); [|apply Rmult_le_reg_r with (exp (19 / 10)); [lra|]; rewrite Rinv_l by lra; lra].
  replace (19 / 10) with (INR 64 * (19 / 640)) by (cbn; lra). rewrite exp_pow.
  eapply Rle_trans; [|apply pow_incr; split; [|apply exp_ge1]; lra]. rewrite pow64. cbv zeta. lra.
Qed.
Lemma exp_mono x y : x <= y -> exp x <= exp y.
Proof. intros [H| ->]; [left; now apply exp_increasing|lra]. Qed.
Lemma quotient_le a b : b * (2 * sigma ^ 2) <= a -> - a / (2 * sigma ^ 2) <= - b.
Proof.
  intros H. assert (0 < sigma ^ 2) by (apply pow_lt; exact Hs).
  apply Rmult_le_reg_r with (2 * sigma ^ 2); [lra|]. field_simplify; lra.
Qed.

Theorem wavelet_nonzero xi : 0 < xi <= 2 / 5 -> 2459 / 1000 * sigma <= xi -> 2 <= INR N * sigma ->
  0 < l1_norm N (morlet_raw N (Some xi) sigma).
Proof.
  intros Hx Hr Hn. pose proof N_pos as NP. pose proof K_range as HK. pose proof P_range as HP.
  set (i := Z.to_nat (Int_part (xi * INR N))).
  destruct (base_Int_part (xi * INR N)) as [I1 I2].
  assert (I0 : (0 <= Int_part (xi * INR N))%Z).
  { assert (-1 < Int_part (xi * INR N))%Z; [|lia]. apply lt_IZR. assert (0 < xi * INR N) by nra. lra. }
  assert (Ei : IZR (Int_part (xi * INR N)) = INR i) by (rewrite (INR_IZR_INZ i); unfold i; rewrite Z2Nat.id by exact I0; reflexivity).
  rewrite Ei in I1, I2.
  assert (Hi : (i < N)%nat) by (apply INR_lt; nra).
  assert (W : INR i / INR N <= xi /\ xi - sigma / 2 <= INR i / INR N /\ 0 <= INR i / INR N).
  { split; [|split].
    - apply Rmult_le_reg_r with (INR N); [lra|]. unfold Rdiv. rewrite Rmult_assoc, Rinv_l; lra.
    - apply Rmult_le_reg_r with (INR N); [lra|]. replace (INR i / INR N * INR N) with (INR i) by (field; lra). nra.
    - apply Rmult_le_pos; [apply pos_INR|]. left. now apply Rinv_0_lt_compat. }
  set (w := INR i / INR N) in *.
  apply (l1_norm_pos _ i Hi). rewrite raw_band by lra. pose proof K_pos as KP. apply Rgt_not_eq, Rdiv_lt_0_compat; [|lra].
  assert (KR : INR K <= 9) by (replace 9 with (INR 9) by (cbn; lra); apply le_INR; lia).
  assert (Hc : IZR (Z.of_nat (Z.to_nat (P - 1)) + 1 - P) = 0) by (f_equal; lia).
  assert (HcK : (Z.to_nat (P - 1) < K)%nat) by (unfold n_periods; fold P; lia).
  assert (Pos : forall x j p, (p < K)%nat -> 0 <= exp (- ((fr p j - x) ^ 2) / (2 * sigma ^ 2))) by (intros; left; apply exp_pos).
  assert (B1 : 7 / 8 <= G xi i).
  { eapply Rle_trans; [|apply (rsum_term K (fun p => exp (- ((fr p i - xi) ^ 2) / (2 * sigma ^ 2))) _ (Pos xi i) HcK)].
    cbv beta. unfold fr. rewrite Hc. fold w. eapply Rle_trans; [|apply exp_ge1].
    assert (0 < sigma ^ 2) by (apply pow_lt; exact Hs).
    assert (- (1 / 8) <= - (0 + w - xi) ^ 2 / (2 * sigma ^ 2)); [|lra].
    apply Rmult_le_reg_r with (2 * sigma ^ 2); [lra|].
    replace (- (0 + w - xi) ^ 2 / (2 * sigma ^ 2) * (2 * sigma ^ 2)) with (- (0 + w - xi) ^ 2) by (field; lra). nra. }
  assert (B2 : 1 <= G 0 0).
  { eapply Rle_trans; [|apply (rsum_term K (fun p => exp (- ((fr p 0 - 0) ^ 2) / (2 * sigma ^ 2))) _ (Pos 0 0%nat) HcK)].
    cbv beta. unfold fr. rewrite Hc. eapply Rle_trans; [|apply exp_ge1]. cbn [INR].
    replace (- (0 + 0 / INR N - 0) ^ 2 / (2 * sigma ^ 2)) with 0; [lra|]. field. split; [lra|]. apply Rgt_not_eq. lra. }
  assert (B3 : G xi 0 <= 9 / 18).
  { eapply Rle_trans; [apply rsum_le with (g := fun _ => 1 / 18)|rewrite rsum_const; nra].
    intros p Hp. eapply Rle_trans; [|exact exp_3]. apply exp_mono, quotient_le. unfold fr. cbn [INR].
    replace (0 / INR N) with 0 by (field; lra). rewrite Rplus_0_r.
    eapply Rle_trans; [|apply (integer_gap _ xi); lra].
    assert (S2 : (2459 / 1000 * sigma) ^ 2 <= xi ^ 2) by (apply pow_incr; nra). pose proof (pow2_ge_0 sigma). rewrite Rpow_mult_distr in S2. lra. }
  assert (B4 : G 0 i <= 9 / 6).
  { eapply Rle_trans; [apply rsum_le with (g := fun _ => 1 / 6)|rewrite rsum_const; nra].
    intros p Hp. eapply Rle_trans; [|exact exp_19]. apply exp_mono, quotient_le. unfold fr. fold w. rewrite Rminus_0_r.
    eapply Rle_trans; [|apply (integer_gap _ w); lra].
    assert (S2 : (1959 / 1000 * sigma) ^ 2 <= w ^ 2) by (apply pow_incr; nra). pose proof (pow2_ge_0 sigma). rewrite Rpow_mult_distr in S2. lra. }
  pose proof (G_pos xi 0) as B5. pose proof (G_pos 0 i) as B6.
  assert (G xi 0 / G 0 0 * G 0 i <= 9 / 18 * (9 / 6)); [|lra].
  apply Rmult_le_compat; try lra.
  - left. apply Rdiv_lt_0_compat; lra.
  - apply Rmult_le_reg_r with (G 0 0); [lra|]. replace (G xi 0 / G 0 0 * G 0 0) with (G xi 0) by (field; lra). nra.
Qed.
End Filter.

(** ** The filters of constructed objects *)
Definition normalised (Np : nat) (f : Core1d.filter (nd C) R) : Prop :=
  l1_norm Np (morlet_raw Np (Some (f_xi f)) (f_sigma f)) <> 0.

Lemma psi_zero_mean support p out s N f : constructed support p out s N -> In f (s_psi1 s) \/ In f (s_psi2 s) ->
  at_ (lev f 0) 0 = RtoC 0 /\ List.length (lev f 0) = padded_length s N.
Proof.
  intros (Hsup & H & EN & HN & HJ & Hmo) Hf. destruct (new_filters _ _ _ _ _ Hsup H EN HN HJ) as (HNp & _ & _ & F).
  destruct (F f Hf) as (Hx & Hs & Ht). rewrite (tabulated_lev0 _ _ _ Ht). split; [|exact (tb_len _ _ _ Ht)].
  rewrite morlet_data_at by exact HNp. unfold morlet_at. rewrite raw_zero_mean by (try assumption; lra). f_equal. unfold Rdiv. ring.
Qed.
Lemma psi_l1 support p out s N f : constructed support p out s N -> In f (s_psi1 s) \/ In f (s_psi2 s) ->
  normalised (padded_length s N) f -> l1 (idft (lev f 0)) = 1.
Proof.
  intros (Hsup & H & EN & HN & HJ & Hmo) Hf Hn. destruct (new_filters _ _ _ _ _ Hsup H EN HN HJ) as (HNp & _ & _ & F).
  destruct (F f Hf) as (Hx & Hs & Ht). rewrite (tabulated_lev0 _ _ _ Ht). now apply l1_one.
Qed.
Lemma phi_l1 support p out s N : constructed support p out s N ->
  l1 (idft (lev (s_phi s) 0)) = 1 /\ List.length (lev (s_phi s) 0) = padded_length s N /\ (0 < padded_length s N)%nat /\
  exists b, at_ (lev (s_phi s) 0) 0 = RtoC b /\ 0 < b.
Proof.
  intros (Hsup & H & EN & HN & HJ & Hmo). destruct (new_filters _ _ _ _ _ Hsup H EN HN HJ) as (HNp & Hs & Ht & _).
  rewrite (tabulated_lev0 _ _ _ Ht). pose proof (low_normaliser _ _ HNp Hs) as Hl. split; [|split; [exact (tb_len _ _ _ Ht)|split; [exact HNp|]]].
  - unfold gauss_1d. apply l1_one; [assumption..|]. lra.
  - exists (morlet_at (padded_length s N) None (f_sigma (s_phi s)) 0). split; [now apply morlet_data_at|].
    unfold morlet_at. apply Rdiv_lt_0_compat; [|exact Hl]. rewrite raw_low by assumption.
    apply Rdiv_lt_0_compat; [now apply G_pos|now apply (K_pos (padded_length s N))].
Qed.
