(** Property C118: the solid harmonic wavelet moduli never expand distances in mean square, at any
    degree and scale, so that the coefficients of HarmonicScattering3D are stable with constants that depend on the number of voxels only. *)
From Coq Require Import String Reals ZArith List Bool Arith Lia Lra Psatz Factorial.
From Coquelicot Require Import Coquelicot.
From Verif Require Import Base BaseProofs NdArray NdProofs StackProofs Backend Backend2d Images ComplexOps Dft Conv1d Dft2 Mats FilterBank1d
  Backend3d Core3d FilterBank3d Frontend3d Dft3 Rows3d Eval3d Path3d Construct1d Invariance1d PropScat3d PropValues3d GaussIntegral PropNorm3d PropStability3d Energy3d PropEnergy3d.
Import ListNotations.
Local Open Scope R_scope.

(** ** The largest value of x^l exp(-x), and the moments of the Gaussian *)
Lemma exp_pow x n : exp x ^ n = exp (INR n * x).
Proof. induction n as [|n IH]; [cbn; now rewrite Rmult_0_l, exp_0|]. cbn [pow]. rewrite IH, <- exp_plus, S_INR. f_equal. ring. Qed.
Definition peak (l : nat) : R := INR l ^ l * exp (- INR l).
Lemma peak_pos l : 0 < peak l.
Proof. unfold peak. apply Rmult_lt_0_compat; [|apply exp_pos]. destruct l; [cbn; lra|]. apply pow_lt, lt_0_INR. lia. Qed.
Lemma pow_exp_le l x : 0 <= x -> x ^ l * exp (- x) <= peak l.
Proof.
  intros Hx. unfold peak. destruct l as [|n].
  - cbn [pow INR]. rewrite Ropp_0, exp_0, !Rmult_1_l. rewrite exp_Ropp, <- Rinv_1. apply Rinv_le_contravar; [lra|]. pose proof (exp_ineq1_le x). lra.
  - set (l := S n). assert (P : 0 < INR l) by (apply lt_0_INR; unfold l; lia).
    assert (H : (x / INR l) ^ l <= exp (x - INR l)).
    { replace (x - INR l) with (INR l * (x / INR l - 1)) by (field; lra). rewrite <- exp_pow. apply pow_incr. split; [apply Rdiv_le_0_compat; lra|].
      pose proof (exp_ineq1_le (x / INR l - 1)). lra. }
    replace (x ^ l) with (INR l ^ l * (x / INR l) ^ l) by (rewrite <- Rpow_mult_distr; f_equal; field; lra).
    replace (exp (- INR l)) with (exp (x - INR l) * exp (- x)) by (rewrite <- exp_plus; f_equal; ring).
    pose proof (exp_pos (- x)). assert (0 < INR l ^ l) by now apply pow_lt. rewrite Rmult_assoc. apply Rmult_le_compat_l; [lra|]. apply Rmult_le_compat_r; lra.
Qed.
Lemma peak_SS l : peak (S (S l)) <= INR (S (S l)) ^ 2 * peak l.
Proof.
  unfold peak. set (a := INR (S (S l))). assert (Ea : a = INR l + 2) by (unfold a; rewrite !S_INR; ring). assert (Pl := pos_INR l).
  replace (a ^ S (S l)) with (a ^ 2 * a ^ l) by (cbn [pow]; ring). rewrite Rmult_assoc. apply Rmult_le_compat_l; [apply pow2_ge_0|].
  destruct l as [|n].
  - cbn [pow INR]. rewrite Ropp_0, exp_0, !Rmult_1_l. rewrite exp_Ropp, <- Rinv_1. apply Rinv_le_contravar; [lra|]. pose proof (exp_ineq1_le a). cbn [INR] in Ea. lra.
  - set (l := S n) in *. assert (P : 0 < INR l) by (apply lt_0_INR; unfold l; lia).
    assert (H : (a / INR l) ^ l <= exp 2).
    { replace 2 with (INR l * (2 / INR l)) at 1 by (field; lra). rewrite <- exp_pow. apply pow_incr. split; [apply Rdiv_le_0_compat; lra|].
      replace (a / INR l) with (1 + 2 / INR l) by (rewrite Ea; field; lra). apply exp_ineq1_le. }
    replace (a ^ l) with (INR l ^ l * (a / INR l) ^ l) by (rewrite <- Rpow_mult_distr; f_equal; field; lra).
    replace (exp (- INR l)) with (exp 2 * exp (- a)) by (rewrite <- exp_plus; f_equal; rewrite Ea; ring).
    pose proof (exp_pos (- a)). assert (0 < INR l ^ l) by now apply pow_lt. rewrite Rmult_assoc. apply Rmult_le_compat_l; [lra|]. apply Rmult_le_compat_r; lra.
Qed.
Lemma peak_moment_step l : PI / 2 * peak l <= moment (l + 2) ^ 2 -> PI / 2 * peak (S (S l)) <= moment (S (S l) + 2) ^ 2.
Proof.
  intros H. replace (S (S l) + 2)%nat with (S (S (l + 2))) by lia. rewrite moment_SS, Rpow_mult_distr. pose proof PI_RGT_0. pose proof (peak_SS l). pose proof (peak_pos l).
  assert (A : INR (S (S l)) ^ 2 <= INR (S (l + 2)) ^ 2) by (apply pow_incr; split; [apply pos_INR|apply le_INR; lia]).
  assert (B : 0 <= INR (S (S l)) ^ 2) by apply pow2_ge_0. set (u := INR (S (S l)) ^ 2) in *. set (v := INR (S (l + 2)) ^ 2) in *.
  apply Rle_trans with (u * (PI / 2 * peak l)); [replace (u * (PI / 2 * peak l)) with (PI / 2 * (u * peak l)) by ring; apply Rmult_le_compat_l; lra|].
  apply Rmult_le_compat; try assumption. apply Rmult_le_pos; lra.
Qed.
Lemma peak_moment l : PI / 2 * peak l <= moment (l + 2) ^ 2.
Proof.
  pose proof PI_RGT_0 as HP. enough (H : PI / 2 * peak l <= moment (l + 2) ^ 2 /\ PI / 2 * peak (S l) <= moment (S l + 2) ^ 2) by apply H.
  induction l as [|l [H1 H2]]; [split|split; [exact H2|now apply peak_moment_step]].
  - change (0 + 2)%nat with (2 * 1)%nat. rewrite moment_even. change (double_factorial (2 * 0 + 1)) with 1%nat. change (INR 1) with 1. rewrite Rmult_1_l, pow2_sqrt by lra.
    unfold peak. cbn [INR pow]. rewrite Ropp_0, exp_0. lra.
  - change (1 + 2)%nat with (2 * 1 + 1)%nat. rewrite moment_odd. unfold peak. cbn [INR pow fact Nat.mul Nat.add]. 
    assert (exp (Ropp 1) <= 1) by (left; apply Rlt_le_trans with (exp 0); [apply exp_increasing; lra|rewrite exp_0; lra]).
    pose proof (exp_pos (- 1)). pose proof PI_4. nra.
Qed.
(** ** The energy of the wavelets at a frequency *)
Lemma energy_le_1 sph sigma l w1 w2 w3 : 0 < sigma -> (l <> 0%nat -> addition_theorem sph l) ->
  energy (fun m => solid_harmonic_at sph sigma l m w1 w2 w3) l <= 1.
Proof.
  intros Hs Hsph. pose proof PI_RGT_0 as HP. destruct (C93_fourier_energy sph sigma l w1 w2 w3 (moment (l + 2)) Hs Hsph (moment_lim (l + 2))) as (Hm & E).
  set (rho := sigma * sqrt (w1 ^ 2 + w2 ^ 2 + w3 ^ 2)) in *. set (e := energy _ l) in *.
  assert (He : 0 <= e). { unfold e, energy. rewrite <- (map_map (fun i => Cmod (solid_harmonic_at sph sigma l (Z.of_nat i - Z.of_nat l) w1 w2 w3)) (fun t => t ^ 2)). apply squares_nonneg. }
  rewrite <- (pow2_sqrt e He), E. rewrite Rpow_mult_distr. replace ((rho ^ l * exp (- (1 / 2) * rho ^ 2)) ^ 2) with ((rho ^ 2) ^ l * exp (- rho ^ 2)).
  2:{ rewrite Rpow_mult_distr, <- !pow_mult, (Nat.mul_comm l), exp_pow. do 2 f_equal. cbn [INR]. field. }
  unfold Rdiv. rewrite Rpow_mult_distr, pow_inv. fold (PI / 2). rewrite pow2_sqrt by lra.
  assert (P : 0 < moment (l + 2) ^ 2) by now apply pow_lt. apply (Rmult_le_reg_l (moment (l + 2) ^ 2)); [exact P|]. rewrite Rmult_1_r.
  apply Rle_trans with (PI / 2 * peak l); [|apply peak_moment]. pose proof (pow_exp_le l (rho ^ 2) (pow2_ge_0 rho)).
  replace (moment (l + 2) ^ 2 * (PI / 2 * / moment (l + 2) ^ 2 * ((rho ^ 2) ^ l * exp (- rho ^ 2)))) with (PI / 2 * ((rho ^ 2) ^ l * exp (- rho ^ 2))) by (field; lra).
  apply Rmult_le_compat_l; lra.
Qed.

Lemma first_le_energy psi l : Cmod (psi (- Z.of_nat l)%Z) ^ 2 <= energy psi l.
Proof.
  unfold energy. replace (2 * l + 1)%nat with (S (2 * l)) by lia. cbn [seq map fold_right]. change (Z.of_nat 0 - Z.of_nat l)%Z with (- Z.of_nat l)%Z.
  pose proof (squares_nonneg (map (fun i => Cmod (psi (Z.of_nat i - Z.of_nat l)%Z)) (seq 1 (2 * l)))) as H. rewrite map_map in H. lra.
Qed.
(** Every second-order index is that of a pair of scales. *)
Local Open Scope Z_scope.
Definition offset2 (J a : Z) : Z := a * (2 * J + 1 - a) / 2.
Lemma offset2_S J a : offset2 J (a + 1) = offset2 J a + (J - a).
Proof. unfold offset2. replace ((a + 1) * (2 * J + 1 - (a + 1))) with (a * (2 * J + 1 - a) + (J - a) * 2) by ring. now rewrite Z.div_add by lia. Qed.
Lemma second_row J i (n : nat) : 0 <= i < offset2 J (Z.of_nat n) -> exists a, 0 <= a < Z.of_nat n /\ offset2 J a <= i < offset2 J (a + 1).
Proof.
  induction n as [|n IH]; [unfold offset2; cbn; lia|]. intros H. destruct (Z.lt_ge_cases i (offset2 J (Z.of_nat n))) as [L|L].
  - destruct IH as (a & A1 & A2); [lia|]. exists a. split; [lia|exact A2].
  - exists (Z.of_nat n). replace (Z.of_nat (S n)) with (Z.of_nat n + 1) in H by lia. split; lia.
Qed.
Lemma second_index J i : 0 <= J -> 0 <= i < J * (J + 1) / 2 -> exists a c, 0 <= a /\ a < c /\ c <= J /\ i = a * (2 * J + 1 - a) / 2 + (c - a - 1).
Proof.
  intros L H. destruct (second_row J i (Z.to_nat J)) as (a & A1 & A2).
  - unfold offset2. rewrite Z2Nat.id by lia. replace (J * (2 * J + 1 - J)) with (J * (J + 1)) by ring. exact H.
  - rewrite offset2_S in A2. exists a, (a + 1 + (i - offset2 J a)). change (a * (2 * J + 1 - a) / 2) with (offset2 J a). repeat split; lia.
Qed.

(** ** C118 *)
Theorem C118_contraction : forall sph f p s batch x y, runs3 f p -> valid3 p -> (0 < h_sigma_0 p)%R ->
  (forall l, l <> 0%nat -> Z.of_nat l <= h_L p -> forall azimuthal polar,
     fold_right Rplus 0%R (map (fun i => pow (Cmod (sph (Z.of_nat i - Z.of_nat l) (Z.of_nat l) azimuthal polar)) 2) (seq 0 (2 * l + 1))) = ((2 * INR l + 1) / (4 * PI))%R) ->
  new3 sph p = Ok s -> input3 p batch x -> input3 p batch y ->
  exists z z', f s x = Ok z /\ f s y = Ok z' /\
  forall b i l q, (b < prod batch)%nat -> (i < n_paths (h_J p) (h_max_order p))%nat -> (l < Z.to_nat (h_L p + 1))%nat -> (q < List.length (h_integral_powers p))%nat ->
    let vx := volume (Mx p) (Nx p) (Dx p) b x in let vy := volume (Mx p) (Nx p) (Dx p) b y in
    let norm v := sqrt (rsum3 (Mx p) (Nx p) (Dx p) (fun u v' w => (Cmod (vox (Nx p) (Dx p) v u v' w) ^ 2)%R)) in
    let distance := sqrt (rsum3 (Mx p) (Nx p) (Dx p) (fun u v w => (Cmod (vox (Nx p) (Dx p) vx u v w - vox (Nx p) (Dx p) vy u v w)%C ^ 2)%R)) in
    (nth q (h_integral_powers p) 0%R = 1%R -> (Cmod (coef3 p z b i l q - coef3 p z' b i l q)%C <= sqrt (INR (Mx p * (Nx p * Dx p))) * distance)%R) /\
    (nth q (h_integral_powers p) 0%R = 2%R -> (Cmod (coef3 p z b i l q - coef3 p z' b i l q)%C <= distance * (norm vx + norm vy))%R).
Proof.
  intros sph f p s batch x y Hf Hv Hs Hsph Hn Hx Hy.
  destruct (C117_mean_square sph f p s batch x y Hf Hv Hn Hx Hy) as (z & z' & Ez & Ez' & H). exists z, z'. split; [exact Ez|]. split; [exact Ez'|].
  intros b i l q Hb Hi Hl Hq vx vy norm distance.
  assert (HG : forall j u v w, (weight3 sph p l j u v w <= 1)%R).
  { intros j u v w. pose proof (energy_le_1 sph (h_sigma_0 p * 2 ^ j) l (freq (Mx p) u) (freq (Nx p) v) (freq (Dx p) w)) as A. unfold weight3.
    destruct (h_rotation_covariant p); [|eapply Rle_trans; [apply (first_le_energy (fun m => solid_harmonic_at sph (h_sigma_0 p * 2 ^ j) l m (freq (Mx p) u) (freq (Nx p) v) (freq (Dx p) w)) l)|]]; (apply A; [apply Rmult_lt_0_compat; [exact Hs|apply pow_lt; lra]|]);
    intros L0 az po; (apply Hsph; [exact L0|lia]). }
  assert (HJ : 0 <= h_J p) by apply Hv.
  destruct (H b l i q 1%R (fun _ => 1%R) Hb Hl Hq ltac:(intros; apply HG)) as [H1 H2].
  - destruct (C49_paths (h_J p) (h_max_order p) HJ) as (P1 & _). destruct (Z.eqb_spec (h_max_order p) 2) as [E2|E2].
    + destruct (Nat.lt_ge_cases i (Z.to_nat (h_J p + 1))) as [L1|L1]; [left; exists i; auto|]. right.
      assert (I : exists j1 j2, (j1 < j2)%nat /\ Z.of_nat j2 <= h_J p /\ i = Z.to_nat (h_J p + 1 + Z.of_nat j1 * (2 * h_J p + 1 - Z.of_nat j1) / 2 + (Z.of_nat j2 - Z.of_nat j1 - 1))).
      { destruct (second_index (h_J p) (Z.of_nat i - (h_J p + 1)) HJ) as (a & c & A1 & A2 & A3 & A4).
        - unfold n_paths in Hi. rewrite E2, Z.eqb_refl in Hi. assert (0 <= h_J p * (h_J p + 1) / 2) by (apply Z.div_pos; nia). lia.
        - exists (Z.to_nat a), (Z.to_nat c). rewrite !Z2Nat.id by lia. repeat split; try lia. }
      destruct I as (j1 & j2 & A & B & D). exists j1, j2. repeat split; try assumption. lra.
    + left. exists i. unfold n_paths in Hi. rewrite (proj2 (Z.eqb_neq _ _) E2) in Hi. auto.
  - rewrite Rmult_1_l in *. rewrite !Rmult_1_l in H2. split; assumption.
Qed.
Print Assumptions C118_contraction.
(** The harmonics of constant modulus 1/sqrt(4 pi), degree 1, on two volumes of 4 x 2 x 3 voxels; path (0, 2). *)
Example C118_instance : let sph := (fun _ _ _ _ => RtoC (sqrt (/ (4 * PI)))) : Z -> Z -> R -> R -> C in
  exists s z z', new3 sph p_ex = Ok s /\ numpy_scattering3 s x_ex = Ok z /\ numpy_scattering3 s (scale3 3 x_ex) = Ok z' /\
  let v := volume 4 2 3 1 x_ex in let v' := volume 4 2 3 1 (scale3 3 x_ex) in
  (Cmod (coef3 p_ex z 1 4 1 0 - coef3 p_ex z' 1 4 1 0)%C <= sqrt (INR 24) * sqrt (rsum3 4 2 3 (fun a b c => Cmod (vox 2 3 v a b c - vox 2 3 v' a b c)%C ^ 2)))%R.
Proof.
  pose proof PI_RGT_0 as HP. intros sph. pose proof (new3_ok sph p_ex p_ex_valid) as Hs.
  match type of Hs with _ = Ok ?t => set (s := t) in Hs end.
  destruct (C118_contraction sph numpy_scattering3 p_ex s [2; 1]%nat x_ex (scale3 3 x_ex) (or_introl eq_refl) p_ex_valid) as (z & z' & H1 & H2 & H); [cbn; lra| |exact Hs|exact x_ex_ok|apply scale3_input; exact x_ex_ok|].
  - intros l _ _ az po. unfold sph. rewrite Cmod_R, Rabs_right by (apply Rle_ge, sqrt_pos). rewrite pow2_sqrt by (left; apply Rinv_0_lt_compat; lra).
    replace (2 * INR l + 1)%R with (INR (2 * l + 1)) by (rewrite plus_INR, mult_INR; cbn [INR]; ring).
    assert (G : forall n b, fold_right Rplus 0%R (map (fun _ : nat => / (4 * PI))%R (seq b n)) = (INR n / (4 * PI))%R).
    { induction n as [|n IH]; intros b; [cbn; field; lra|]. cbn [seq map fold_right]. rewrite IH, S_INR. field. lra. }
    apply G.
  - exists s, z, z'. split; [exact Hs|]. split; [exact H1|]. split; [exact H2|]. intros v v'.
    destruct (H 1%nat 4%nat 1%nat 0%nat) as [A _]; try (cbn; lia). exact (A eq_refl).
Qed.

(** ** The constants cannot be improved *)
Local Open Scope R_scope.
Lemma rsum3_const M N D k : rsum3 M N D (fun _ _ _ => k) = INR (M * (N * D)) * k.
Proof.
  unfold rsum3. rewrite (rsum_ext M _ (fun _ => INR N * (INR D * k))) by (intros; rewrite (rsum_ext N _ (fun _ => INR D * k)) by (intros; apply rsum_const); apply rsum_const).
  rewrite rsum_const, !mult_INR. ring.
Qed.
Lemma sqrt_const V k : 0 <= V -> sqrt (V * k ^ 2) = sqrt V * Rabs k.
Proof. intros H. rewrite sqrt_mult by (try apply pow2_ge_0; assumption). f_equal. replace (k ^ 2) with (Rsqr k) by (unfold Rsqr; ring). apply sqrt_Rsqr_abs. Qed.
(** Two constant volumes of even sizes, of values of the same sign: both bounds hold with equality, at degree 0 on every path. *)
Theorem C118_sharp : forall sph f p s batch x y k k', runs3 f p -> valid3 p -> Nat.even (Mx p) = true -> Nat.even (Nx p) = true -> Nat.even (Dx p) = true ->
  List.Forall (fun q => 0 < q) (h_integral_powers p) -> new3 sph p = Ok s -> input3 p batch x -> input3 p batch y ->
  (forall z, In z (nd_data x) -> z = RtoC k) -> (forall z, In z (nd_data y) -> z = RtoC k') -> 0 <= k * k' ->
  exists z z', f s x = Ok z /\ f s y = Ok z' /\
  forall b i q, (b < prod batch)%nat -> (i < n_paths (h_J p) (h_max_order p))%nat -> (q < List.length (h_integral_powers p))%nat ->
    let vx := volume (Mx p) (Nx p) (Dx p) b x in let vy := volume (Mx p) (Nx p) (Dx p) b y in
    let norm v := sqrt (rsum3 (Mx p) (Nx p) (Dx p) (fun u v' w => Cmod (vox (Nx p) (Dx p) v u v' w) ^ 2)) in
    let distance := sqrt (rsum3 (Mx p) (Nx p) (Dx p) (fun u v w => Cmod (vox (Nx p) (Dx p) vx u v w - vox (Nx p) (Dx p) vy u v w)%C ^ 2)) in
    (nth q (h_integral_powers p) 0 = 1 -> Cmod (coef3 p z b i 0 q - coef3 p z' b i 0 q)%C = sqrt (INR (Mx p * (Nx p * Dx p))) * distance) /\
    (nth q (h_integral_powers p) 0 = 2 -> Cmod (coef3 p z b i 0 q - coef3 p z' b i 0 q)%C = distance * (norm vx + norm vy)).
Proof.
  intros sph f p s batch x y k k' Hf Hv EM EN ED Hpos Hn Hx Hy Hkx Hky Hk.
  destruct (C77_constant sph f p s batch x k Hf Hv EM EN ED Hpos Hn Hx Hkx) as (z & Ez & Hz).
  destruct (C77_constant sph f p s batch y k' Hf Hv EM EN ED Hpos Hn Hy Hky) as (z' & Ez' & Hz').
  exists z, z'. split; [exact Ez|]. split; [exact Ez'|]. intros b i q Hb Hi Hq vx vy norm distance.
  assert (HL : (0 < Z.to_nat (h_L p + 1))%nat) by (destruct Hv as (? & ? & ?); lia).
  rewrite Hz, Hz' by assumption. cbn [Nat.eqb]. set (V := INR (Mx p * (Nx p * Dx p))). assert (HV : 0 <= V) by apply pos_INR.
  assert (N1 : norm vx = sqrt V * Rabs k).
  { unfold norm, vx. rewrite (volume_const p batch x k b Hx Hkx Hb), (rsum3_ext _ _ _ _ (fun _ _ _ => k ^ 2)), rsum3_const by (intros; unfold const3; rewrite vox_vol, Cmod_R by assumption; rewrite <- (pow2_abs k); reflexivity).
    now apply sqrt_const. }
  assert (N2 : norm vy = sqrt V * Rabs k').
  { unfold norm, vy. rewrite (volume_const p batch y k' b Hy Hky Hb), (rsum3_ext _ _ _ _ (fun _ _ _ => k' ^ 2)), rsum3_const by (intros; unfold const3; rewrite vox_vol, Cmod_R by assumption; rewrite <- (pow2_abs k'); reflexivity).
    now apply sqrt_const. }
  assert (N3 : distance = sqrt V * Rabs (k - k')).
  { unfold distance, vx, vy. rewrite (volume_const p batch x k b Hx Hkx Hb), (volume_const p batch y k' b Hy Hky Hb), (rsum3_ext _ _ _ _ (fun _ _ _ => (k - k') ^ 2)), rsum3_const.
    - now apply sqrt_const.
    - intros a c d Ha Hc Hd. unfold const3. rewrite !vox_vol by assumption. rewrite <- RtoC_minus, Cmod_R. apply pow2_abs. }
  pose proof (sqrt_sqrt V HV) as SV. rewrite N1, N2, N3, <- RtoC_minus, Cmod_R.
  assert (A : Rabs (Rabs k - Rabs k') = Rabs (k - k')).
  { unfold Rabs. repeat (destruct Rcase_abs); nra. }
  assert (B : Rabs k ^ 2 - Rabs k' ^ 2 = (k - k') * (k + k')) by (rewrite !pow2_abs; ring).
  assert (D : Rabs k + Rabs k' = Rabs (k + k')) by (unfold Rabs; repeat (destruct Rcase_abs); nra).
  split; intros ->.
  - rewrite !rpow_1' by apply Rabs_pos. replace (V * Rabs k - V * Rabs k') with (V * (Rabs k - Rabs k')) by ring. rewrite Rabs_mult, A, (Rabs_right V) by lra. rewrite <- SV at 1. ring.
  - rewrite !rpow_2' by apply Rabs_pos. replace (V * Rabs k ^ 2 - V * Rabs k' ^ 2) with (V * (Rabs k ^ 2 - Rabs k' ^ 2)) by ring. rewrite B, !Rabs_mult, (Rabs_right V) by lra.
    rewrite <- Rmult_plus_distr_l, D. rewrite <- SV at 1. ring.
Qed.
Print Assumptions C118_sharp.
(** The volumes 3 and 5 of 4 x 2 x 6 voxels, J = 1, L = 2: the coefficients of power 2 differ by 48 (25 - 9). *)
Example C118_sharp_instance : let p := mk_params3 1 4 2 6 2 1 2 true "integral" [1; 2] in
  exists s z z', new3 sph0 p = Ok s /\ numpy_scattering3 s (mk_nd Real [4; 2; 6]%nat (repeat (RtoC 3) 48)) = Ok z /\
  numpy_scattering3 s (mk_nd Real [4; 2; 6]%nat (repeat (RtoC 5) 48)) = Ok z' /\
  Cmod (coef3 p z 0 2 0 0 - coef3 p z' 0 2 0 0)%C =
  sqrt (INR 48) * sqrt (rsum3 4 2 6 (fun u v w => Cmod (vox 2 6 (repeat (RtoC 3) 48) u v w - vox 2 6 (repeat (RtoC 5) 48) u v w)%C ^ 2)).
Proof.
  intros p. assert (Hv : valid3 p) by (unfold valid3; cbn; repeat split; try lia; try lra; discriminate).
  pose proof (new3_ok sph0 p Hv) as Hs. match type of Hs with _ = Ok ?t => set (s := t) in Hs end.
  destruct (C118_sharp sph0 numpy_scattering3 p s [] (mk_nd Real [4; 2; 6]%nat (repeat (RtoC 3) 48)) (mk_nd Real [4; 2; 6]%nat (repeat (RtoC 5) 48)) 3 5 (or_introl eq_refl) Hv eq_refl eq_refl eq_refl) as (z & z' & H1 & H2 & H).
  - repeat constructor; lra.
  - exact Hs.
  - repeat split. cbn. lia.
  - repeat split. cbn. lia.
  - intros c Hc. apply repeat_spec in Hc. exact Hc.
  - intros c Hc. apply repeat_spec in Hc. exact Hc.
  - lra.
  - exists s, z, z'. split; [exact Hs|]. split; [exact H1|]. split; [exact H2|]. destruct (H 0%nat 2%nat 0%nat) as [A _]; try (cbn; lia). exact (A eq_refl).
Qed.
