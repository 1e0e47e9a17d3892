(** Property C116: where the centre of the 3-D filters is, in space and in the Fourier domain. *)
From Coq Require Import Reals ZArith List Bool Arith Lia Lra.
From Coquelicot Require Import Complex.
From Verif Require Import Base NdArray Backend2d Backend3d ComplexOps Dft3 FilterBank3d Eval3d PropValues3d SpaceBank3d.
Import ListNotations.
Local Open Scope Z_scope.

(** ** The grid *)
(** Along an axis of at least two points the coordinate is zero at index [n mod 2] and nowhere else. *)
Lemma grid_zero n i : (2 <= n)%nat -> (i < n)%nat -> grid_axis n i = 0 <-> i = (n mod 2)%nat.
Proof.
  intros Hn Hi. unfold grid_axis.
  destruct (Nat.Even_or_Odd n) as [[k ->]|[k ->]].
  - replace ((2 * k) mod 2)%nat with 0%nat by (rewrite Nat.mul_comm, Nat.mod_mul; lia).
    replace (- Z.of_nat (2 * k) / 2) with (- Z.of_nat k) by lia. replace (Z.of_nat (2 * k) / 2) with (Z.of_nat k) by lia.
    destruct (Nat.lt_ge_cases i k) as [H|H].
    + rewrite Z.mod_small by lia. lia.
    + replace (Z.of_nat i + Z.of_nat k) with (Z.of_nat i - Z.of_nat k + 1 * Z.of_nat (2 * k)) by lia. rewrite Z.mod_add, Z.mod_small by lia. lia.
  - replace ((2 * k + 1) mod 2)%nat with 1%nat by (rewrite Nat.add_comm, Nat.mul_comm, Nat.mod_add by lia; reflexivity).
    replace (- Z.of_nat (2 * k + 1) / 2) with (- Z.of_nat k - 1) by lia. replace (Z.of_nat (2 * k + 1) / 2) with (Z.of_nat k) by lia.
    destruct (Nat.lt_ge_cases i (k + 1)) as [H|H].
    + rewrite Z.mod_small by lia. lia.
    + replace (Z.of_nat i + Z.of_nat k) with (Z.of_nat i - Z.of_nat k - 1 + 1 * Z.of_nat (2 * k + 1)) by lia. rewrite Z.mod_add, Z.mod_small by lia. lia.
Qed.
Lemma coordinate_zero fourier n i : (2 <= n)%nat -> (i < n)%nat -> coordinate fourier n i = 0%R <-> i = (n mod 2)%nat.
Proof.
  intros Hn Hi. rewrite <- (grid_zero n i Hn Hi). unfold coordinate, freq. destruct fourier.
  - assert (H : (2 * PI / INR n <> 0)%R).
    { pose proof PI_RGT_0. apply Rgt_not_eq. apply Rdiv_lt_0_compat; [lra|]. apply lt_0_INR. lia. }
    split; [|intros ->; ring]. intros E. apply Rmult_integral in E as [E|E]; [now apply eq_IZR|contradiction].
  - split; [apply (eq_IZR _ 0)|now intros ->].
Qed.

(** ** C116 *)
(** The value of a Gaussian at its centre. *)
Definition peak (fourier : bool) (sigma : R) : R := if fourier then 1%R else (/ (Rpower (2 * PI) (3 / 2) * pow sigma 3))%R.

Lemma gaussian_peak fourier sigma f1 f2 f3 : (0 < sigma)%R ->
  gaussian_point fourier sigma 0 0 0 = peak fourier sigma /\
  (f1 <> 0 \/ f2 <> 0 \/ f3 <> 0 -> 0 < gaussian_point fourier sigma f1 f2 f3 < peak fourier sigma)%R.
Proof.
  intros Hs. unfold gaussian_point, peak. cbv zeta.
  assert (E0 : forall d, exp (- (1 / 2) * (pow 0 2 + pow 0 2 + pow 0 2) / d) = 1%R).
  { intros d. rewrite <- exp_0. f_equal. unfold Rdiv. ring. }
  assert (Hp : (0 < Rpower (2 * PI) (3 / 2) * pow sigma 3)%R) by (apply Rmult_lt_0_compat; [apply exp_pos|now apply pow_lt]).
  split.
  - rewrite E0. destruct fourier; [reflexivity|]. unfold Rdiv. ring.
  - intros Hf. set (q := (pow f1 2 + pow f2 2 + pow f3 2)%R). assert (Hq : (0 < q)%R).
    { unfold q. pose proof (pow2_ge_0 f1). pose proof (pow2_ge_0 f2). pose proof (pow2_ge_0 f3).
      destruct Hf as [H2|[H2|H2]]; apply pow2_gt_0 in H2; lra. }
    assert (G : forall d, (0 < d)%R -> (0 < exp (- (1 / 2) * q / d) < 1)%R).
    { intros d Hd. split; [apply exp_pos|]. apply (Rlt_le_trans _ (exp 0)); [|rewrite exp_0; lra]. apply exp_increasing.
      assert (0 < q * / d)%R by (apply Rmult_lt_0_compat; [exact Hq|now apply Rinv_0_lt_compat]). replace (- (1 / 2) * q / d)%R with (- (1 / 2) * (q * / d))%R by (unfold Rdiv; ring). lra. }
    destruct fourier.
    + apply G. apply pow_lt. apply Rdiv_lt_0_compat; lra.
    + specialize (G (pow sigma 2) (pow_lt _ 2 Hs)). set (d := (Rpower (2 * PI) (3 / 2) * pow sigma 3)%R) in *.
      set (g := exp _) in *. clearbody g d. change (0 < g * / d < / d)%R. pose proof (Rinv_0_lt_compat _ Hp). nra.
Qed.

(** All sizes of at least two points, both domains.  At index (M mod 2, N mod 2, O mod 2) every Gaussian filter has its peak value,
    everywhere else it is positive and strictly below. *)
Theorem C116_gaussian_centre : forall fourier M N D J sigma_0 j w a b c,
  (2 <= M)%nat -> (2 <= N)%nat -> (2 <= D)%nat -> (0 < sigma_0)%R ->
  nth_error (gaussian_filter_bank_in fourier M N D J sigma_0) j = Some w -> (a < M)%nat -> (b < N)%nat -> (c < D)%nat ->
  exists v, vox N D (nd_data w) a b c = RtoC v /\
    ((a, b, c) = (M mod 2, N mod 2, D mod 2)%nat -> v = peak fourier (sigma_0 * 2 ^ j)) /\
    ((a, b, c) <> (M mod 2, N mod 2, D mod 2)%nat -> (0 < v < peak fourier (sigma_0 * 2 ^ j))%R).
Proof.
  intros fourier M N D J s0 j w a b c HM HN HD Hs Hw Ha Hb Hc. unfold gaussian_filter_bank_in in Hw. rewrite nth_error_map in Hw.
  destruct (nth_error (zrange 0 (J + 1)) j) as [zj|] eqn:Ej; [|discriminate]. injection Hw as <-. cbn [nd_data].
  assert (Hj : (j < Z.to_nat (J + 1 - 0))%nat) by (rewrite <- zrange_length; apply nth_error_Some; congruence).
  apply (nth_error_nth _ _ 0) in Ej. rewrite nth_zrange in Ej by exact Hj. subst zj. rewrite Z.add_0_l, Nat2Z.id.
  assert (Hs' : (0 < s0 * 2 ^ j)%R) by (apply Rmult_lt_0_compat; [exact Hs|apply pow_lt; lra]).
  unfold gaussian_3d_in. rewrite vox_vol by assumption. eexists. split; [reflexivity|].
  destruct (gaussian_peak fourier (s0 * 2 ^ j) (coordinate fourier M a) (coordinate fourier N b) (coordinate fourier D c) Hs') as [P1 P2]. split.
  - intros E. assert (Ea : a = (M mod 2)%nat) by congruence. assert (Eb : b = (N mod 2)%nat) by congruence. assert (Ec : c = (D mod 2)%nat) by congruence.
    clear E. subst a b c.
    rewrite (proj2 (coordinate_zero fourier M (M mod 2) HM Ha) eq_refl), (proj2 (coordinate_zero fourier N (N mod 2) HN Hb) eq_refl),
      (proj2 (coordinate_zero fourier D (D mod 2) HD Hc) eq_refl). exact P1.
  - intros E. apply P2. rewrite (coordinate_zero fourier M a HM Ha), (coordinate_zero fourier N b HN Hb), (coordinate_zero fourier D c HD Hc).
    destruct (Nat.eq_dec a (M mod 2)); [|tauto]. destruct (Nat.eq_dec b (N mod 2)); [|tauto]. destruct (Nat.eq_dec c (D mod 2)); [|tauto]. congruence.
Qed.
Print Assumptions C116_gaussian_centre.

(** The wavelets: those of degree 0 are the Gaussians, the others vanish at the centre, whatever the spherical harmonics. *)
Theorem C116_wavelets : forall sph fourier M N D J L sigma_0 l j m fl fj w, (2 <= M)%nat -> (2 <= N)%nat -> (2 <= D)%nat ->
  nth_error (solid_harmonic_filter_bank_in sph fourier M N D J L sigma_0) l = Some fl -> nth_error fl j = Some fj -> nth_error fj m = Some w ->
  (l = 0%nat -> Some w = nth_error (gaussian_filter_bank_in fourier M N D J sigma_0) j) /\
  (l <> 0%nat -> vox N D (nd_data w) (M mod 2) (N mod 2) (D mod 2) = RtoC 0).
Proof.
  intros sph fourier M N D J L s0 l j m fl fj w HM HN HD H1 H2 H3.
  unfold solid_harmonic_filter_bank_in in H1. rewrite nth_error_map in H1. destruct (nth_error (zrange 0 (L + 1)) l) as [zl|] eqn:El; [|discriminate].
  injection H1 as <-. rewrite nth_error_map in H2. destruct (nth_error (zrange 0 (J + 1)) j) as [zj|] eqn:Ej; [|discriminate]. injection H2 as <-.
  unfold solid_harmonic_3d_in in H3. rewrite nth_error_map in H3. destruct (nth_error _ m) as [zm|] eqn:Em; [|discriminate]. injection H3 as <-. cbn [nd_data].
  assert (Hl : (l < Z.to_nat (L + 1 - 0))%nat) by (rewrite <- zrange_length; apply nth_error_Some; congruence).
  apply (nth_error_nth _ _ 0) in El. rewrite nth_zrange in El by exact Hl. subst zl. rewrite Z.add_0_l, Nat2Z.id.
  split.
  - intros ->. unfold gaussian_filter_bank_in. rewrite nth_error_map, Ej. cbn [option_map]. unfold gaussian_3d_in. do 2 f_equal.
    apply vol_ext. intros a b c _ _ _. unfold solid_harmonic_point, gaussian_point. cbn [Nat.eqb]. cbv zeta. destruct fourier; reflexivity.
  - intros Hl0. pose proof (Nat.mod_upper_bound M 2). pose proof (Nat.mod_upper_bound N 2). pose proof (Nat.mod_upper_bound D 2).
    rewrite vox_vol by lia.
    rewrite (proj2 (coordinate_zero fourier M (M mod 2) HM ltac:(lia)) eq_refl), (proj2 (coordinate_zero fourier N (N mod 2) HN ltac:(lia)) eq_refl),
      (proj2 (coordinate_zero fourier D (D mod 2) HD ltac:(lia)) eq_refl).
    unfold solid_harmonic_point. cbv zeta. destruct (Nat.eqb_spec l 0); [contradiction|].
    replace (pow 0 2 + pow 0 2 + pow 0 2)%R with 0%R by ring. destruct (angles 0 0 0) as [po az]. rewrite pow_ne_zero by assumption. rewrite sqrt_0. unfold Rdiv. rewrite !Rmult_0_l. ring.
Qed.
Print Assumptions C116_wavelets.

(** The documented place, index [0, 0, 0], is the centre exactly when the three sizes are even. *)
Theorem C116_documented_partial : forall fourier M N D J sigma_0 j w, (2 <= M)%nat -> (2 <= N)%nat -> (2 <= D)%nat -> (0 < sigma_0)%R ->
  nth_error (gaussian_filter_bank_in fourier M N D J sigma_0) j = Some w ->
  (nth 0 (nd_data w) (RtoC 0) = RtoC (peak fourier (sigma_0 * 2 ^ j)) <-> Nat.even M = true /\ Nat.even N = true /\ Nat.even D = true).
Proof.
  intros fourier M N D J s0 j w HM HN HD Hs Hw.
  destruct (C116_gaussian_centre fourier M N D J s0 j w 0 0 0 HM HN HD Hs Hw ltac:(lia) ltac:(lia) ltac:(lia)) as (v & E & Y & Z').
  change (vox N D (nd_data w) 0 0 0) with (nth 0 (nd_data w) (RtoC 0)) in E. rewrite E.
  assert (P : forall n, Nat.even n = true <-> 0%nat = (n mod 2)%nat).
  { intros n. rewrite Nat.even_spec. split.
    - intros [k ->]. rewrite Nat.mul_comm, Nat.mod_mul; lia.
    - intros H. exists (n / 2)%nat. pose proof (Nat.div_mod_eq n 2). lia. }
  rewrite !P. split.
  - intros Ev. apply RtoC_inj in Ev.
    destruct (Nat.eq_dec 0 (M mod 2)) as [e1|]; [destruct (Nat.eq_dec 0 (N mod 2)) as [e2|]; [destruct (Nat.eq_dec 0 (D mod 2)) as [e3|]; [now repeat split|]|]|];
    exfalso; (assert (T : (0%nat, 0%nat, 0%nat) <> (M mod 2, N mod 2, D mod 2)%nat) by congruence); specialize (Z' T); lra.
  - intros (e1 & e2 & e3). f_equal. apply Y. congruence.
Qed.
Print Assumptions C116_documented_partial.

(** An axis of a single point has coordinate -1: the filters then have no centre at all, and every value is below the peak. *)
Theorem C116_single_refuted : forall fourier N D J sigma_0 j w a b c, (0 < N)%nat -> (0 < D)%nat -> (0 < sigma_0)%R ->
  nth_error (gaussian_filter_bank_in fourier 1 N D J sigma_0) j = Some w -> (a < 1)%nat -> (b < N)%nat -> (c < D)%nat ->
  exists v, vox N D (nd_data w) a b c = RtoC v /\ (0 < v < peak fourier (sigma_0 * 2 ^ j))%R.
Proof.
  intros fourier N D J s0 j w a b c HN HD Hs Hw Ha Hb Hc. unfold gaussian_filter_bank_in in Hw. rewrite nth_error_map in Hw.
  destruct (nth_error (zrange 0 (J + 1)) j) as [zj|] eqn:Ej; [|discriminate]. injection Hw as <-. cbn [nd_data].
  assert (Hj : (j < Z.to_nat (J + 1 - 0))%nat) by (rewrite <- zrange_length; apply nth_error_Some; congruence).
  apply (nth_error_nth _ _ 0) in Ej. rewrite nth_zrange in Ej by exact Hj. subst zj. rewrite Z.add_0_l, Nat2Z.id.
  assert (Hs' : (0 < s0 * 2 ^ j)%R) by (apply Rmult_lt_0_compat; [exact Hs|apply pow_lt; lra]).
  unfold gaussian_3d_in. rewrite vox_vol by assumption. eexists. split; [reflexivity|].
  apply gaussian_peak; [exact Hs'|]. left. assert (a = 0%nat) by lia. subst a. unfold coordinate, freq.
  change (grid_axis 1 0) with (-1). pose proof PI_RGT_0. cbn [INR]. destruct fourier; [|lra]. apply Rlt_not_eq. unfold Rdiv. rewrite Rinv_1. lra.
Qed.
Print Assumptions C116_single_refuted.

(** The bank in the Fourier domain is the one the frontends build. *)
Lemma default_banks : forall sph M N D J L sigma_0,
  solid_harmonic_filter_bank_in sph true M N D J L sigma_0 = solid_harmonic_filter_bank sph M N D J L sigma_0 /\
  gaussian_filter_bank_in true M N D J sigma_0 = gaussian_filter_bank M N D J sigma_0.
Proof. intros. split; reflexivity. Qed.

(** Sizes 4, 6 and 8: three even sizes; 5, 6 and 8: the centre is at index [1, 0, 0]. *)
Example C116_instance : forall fourier, exists w w',
  nth_error (gaussian_filter_bank_in fourier 4 6 8 2 1) 1 = Some w /\ nth_error (gaussian_filter_bank_in fourier 5 6 8 2 1) 1 = Some w' /\
  nth 0 (nd_data w) (RtoC 0) = RtoC (peak fourier (1 * 2 ^ 1)) /\ nth 0 (nd_data w') (RtoC 0) <> RtoC (peak fourier (1 * 2 ^ 1)) /\
  vox 6 8 (nd_data w') 1 0 0 = RtoC (peak fourier (1 * 2 ^ 1)).
Proof.
  intros fourier. eexists _, _. split; [reflexivity|]. split; [reflexivity|]. split; [|split].
  - apply (C116_documented_partial fourier 4 6 8 2 1 1); try lia; try lra; repeat split; reflexivity.
  - intros E. apply (C116_documented_partial fourier 5 6 8 2 1 1) in E; try lia; try lra; [destruct E; discriminate|reflexivity].
  - destruct (C116_gaussian_centre fourier 5 6 8 2 1 1 _ 1 0 0 ltac:(lia) ltac:(lia) ltac:(lia) ltac:(lra) eq_refl ltac:(lia) ltac:(lia) ltac:(lia)) as (v & E & Y & _).
    rewrite E. f_equal. apply Y. reflexivity.
Qed.
