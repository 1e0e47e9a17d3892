(** Property C117: HarmonicScattering3D in mean square. The first-order coefficients of power 2 are the power spectrum of the volume
    integrated against the energy of the wavelets, and every coefficient of power 1 or 2 is stable in mean square. *)
From Coq Require Import String Reals ZArith List Bool Arith Lia Lra Psatz.
From Coquelicot Require Import Complex.
From Verif Require Import Base BaseProofs NdArray NdProofs StackProofs Backend Backend2d Images ComplexOps Dft Conv1d Dft2 Mats FilterBank1d
  Backend3d Core3d FilterBank3d Frontend3d Dft3 Rows3d Eval3d Path3d Construct1d Invariance1d Norm1d Energy1d Shift1d Shift2d PropScat3d PropValues3d PropStability3d Energy3d.
Import ListNotations.
Local Open Scope Z_scope.

Theorem C117_energy : forall sph f p s batch x, runs3 f p -> valid3 p -> new3 sph p = Ok s -> input3 p batch x ->
  exists y, f s x = Ok y /\
  forall b l j q, (b < prod batch)%nat -> (l < Z.to_nat (h_L p + 1))%nat -> (j < Z.to_nat (h_J p + 1))%nat -> (q < List.length (h_integral_powers p))%nat ->
    nth q (h_integral_powers p) 0%R = 2%R ->
    coef3 p y b j l q =
    RtoC (rsum3 (Mx p) (Nx p) (Dx p) (fun u v w => spectrum3 p (volume (Mx p) (Nx p) (Dx p) b x) u v w * weight3 sph p l j u v w) / (INR (Mx p) * (INR (Nx p) * INR (Dx p))))%R.
Proof.
  intros sph f p s batch x Hf Hv Hn Hx. destruct (C73_first_order sph f p s batch x Hf Hv Hn Hx) as (y & Ey & V). exists y. split; [exact Ey|].
  intros b l j q Hb Hl Hj Hq E. rewrite V by assumption. rewrite E, moment_2. pose proof (valid3_sizes p Hv) as (_ & _ & _ & HM & HN & HD). now rewrite u_of_energy.
Qed.
Print Assumptions C117_energy.
(** Volumes with the same power spectrum have the same coefficients of order 1 and power 2. *)
Theorem C117_power_spectrum : forall sph f p s batch x x', runs3 f p -> valid3 p -> new3 sph p = Ok s -> input3 p batch x -> input3 p batch x' ->
  exists y y', f s x = Ok y /\ f s x' = Ok y' /\
  forall b, (b < prod batch)%nat ->
    (forall u v w, (u < Mx p)%nat -> (v < Nx p)%nat -> (w < Dx p)%nat ->
       Cmod (dft3_at (Mx p) (Nx p) (Dx p) (vox (Nx p) (Dx p) (volume (Mx p) (Nx p) (Dx p) b x')) (Z.of_nat u) (Z.of_nat v) (Z.of_nat w)) =
       Cmod (dft3_at (Mx p) (Nx p) (Dx p) (vox (Nx p) (Dx p) (volume (Mx p) (Nx p) (Dx p) b x)) (Z.of_nat u) (Z.of_nat v) (Z.of_nat w))) ->
    forall l j q, (l < Z.to_nat (h_L p + 1))%nat -> (j < Z.to_nat (h_J p + 1))%nat -> (q < List.length (h_integral_powers p))%nat ->
    nth q (h_integral_powers p) 0%R = 2%R -> coef3 p y' b j l q = coef3 p y b j l q.
Proof.
  intros sph f p s batch x x' Hf Hv Hn Hx Hx'. destruct (C117_energy sph f p s batch x Hf Hv Hn Hx) as (y & Ey & V). destruct (C117_energy sph f p s batch x' Hf Hv Hn Hx') as (y' & Ey' & V').
  exists y, y'. split; [exact Ey|]. split; [exact Ey'|]. intros b Hb Hs l j q Hl Hj Hq E. rewrite V, V' by assumption. do 2 f_equal. apply rsum3_ext. intros u v w Hu Hv' Hw.
  f_equal. unfold spectrum3. now rewrite Hs.
Qed.
Print Assumptions C117_power_spectrum.

(** Stability in mean square: g is the product along the path of bounds on the energy of the wavelets at any frequency. *)
Theorem C117_mean_square : forall sph f p s batch x y, runs3 f p -> valid3 p -> new3 sph p = Ok s -> input3 p batch x -> input3 p batch y ->
  exists z z', f s x = Ok z /\ f s y = Ok z' /\
  forall b l i q g (G : nat -> R), (b < prod batch)%nat -> (l < Z.to_nat (h_L p + 1))%nat -> (q < List.length (h_integral_powers p))%nat ->
    (forall j u v w, (j < Z.to_nat (h_J p + 1))%nat -> (u < Mx p)%nat -> (v < Nx p)%nat -> (w < Dx p)%nat -> (weight3 sph p l j u v w <= G j)%R) ->
    (exists j, (j < Z.to_nat (h_J p + 1))%nat /\ i = j /\ g = G j) \/
    (exists j1 j2, h_max_order p = 2 /\ (j1 < j2)%nat /\ Z.of_nat j2 <= h_J p /\
       i = Z.to_nat (h_J p + 1 + Z.of_nat j1 * (2 * h_J p + 1 - Z.of_nat j1) / 2 + (Z.of_nat j2 - Z.of_nat j1 - 1)) /\ g = (G j1 * G j2)%R) ->
    let vx := volume (Mx p) (Nx p) (Dx p) b x in let vy := volume (Mx p) (Nx p) (Dx p) b y in
    let energy v := rsum3 (Mx p) (Nx p) (Dx p) (fun u v' w => (Cmod (vox (Nx p) (Dx p) v u v' w) ^ 2)%R) in
    let distance := rsum3 (Mx p) (Nx p) (Dx p) (fun u v w => (Cmod (vox (Nx p) (Dx p) vx u v w - vox (Nx p) (Dx p) vy u v w)%C ^ 2)%R) in
    (nth q (h_integral_powers p) 0%R = 1%R -> (Cmod (coef3 p z b i l q - coef3 p z' b i l q)%C <= sqrt (INR (Mx p * (Nx p * Dx p))) * sqrt (g * distance))%R) /\
    (nth q (h_integral_powers p) 0%R = 2%R -> (Cmod (coef3 p z b i l q - coef3 p z' b i l q)%C <= sqrt (g * distance) * (sqrt (g * energy vx) + sqrt (g * energy vy)))%R).
Proof.
  intros sph f p s batch x y Hf Hv Hn Hx Hy.
  destruct (C73_first_order sph f p s batch x Hf Hv Hn Hx) as (z & Ez & V1). destruct (C73_first_order sph f p s batch y Hf Hv Hn Hy) as (z' & Ez' & V1').
  exists z, z'. split; [exact Ez|]. split; [exact Ez'|]. intros b l i q g G Hb Hl Hq HG Hi vx vy energy distance.
  pose proof (valid3_sizes p Hv) as (_ & _ & _ & HM & HN & HD).
  assert (Ed : distance = dist3 p vx vy). { unfold distance, dist3, energy3, minus3. apply rsum3_ext. intros u v w Hu Hv' Hw. now rewrite vox_vol. }
  change (energy vx) with (energy3 p vx). change (energy vy) with (energy3 p vy). rewrite Ed. clear Ed distance. clear energy.
  destruct Hi as [(j & Hj & -> & ->)|(j1 & j2 & Hmo & Hj & Hj2 & -> & ->)].
  - rewrite V1, V1' by assumption. fold vx vy. split; intros E; rewrite E; [apply moment_1_close|apply moment_2_close]; try assumption; intros; now apply HG.
  - destruct (C73_second_order sph f p s batch x Hf Hv Hmo Hn Hx) as (z2 & Ez2 & V2). destruct (C73_second_order sph f p s batch y Hf Hv Hmo Hn Hy) as (z2' & Ez2' & V2').
    rewrite Ez in Ez2. injection Ez2 as <-. rewrite Ez' in Ez2'. injection Ez2' as <-. rewrite V2, V2' by assumption. fold vx vy.
    assert (G1 : forall a b c, (a < Mx p)%nat -> (b < Nx p)%nat -> (c < Dx p)%nat -> (weight3 sph p l j1 a b c <= G j1)%R) by (intros; apply HG; try assumption; lia).
    assert (G2 : forall a b c, (a < Mx p)%nat -> (b < Nx p)%nat -> (c < Dx p)%nat -> (weight3 sph p l j2 a b c <= G j2)%R) by (intros; apply HG; try assumption; lia).
    assert (P2 : (0 <= G j2)%R). { eapply Rle_trans; [|apply (G2 0 0 0)%nat; assumption]. unfold weight3. destruct (h_rotation_covariant p); [|apply pow2_ge_0].
      rewrite <- (map_map (fun i => Cmod (solid_harmonic_at sph (h_sigma_0 p * 2 ^ j2) l (Z.of_nat i - Z.of_nat l) (freq (Mx p) 0) (freq (Nx p) 0) (freq (Dx p) 0))) (fun t => (t ^ 2)%R)). apply squares_nonneg. }
    pose proof (again_dist sph p HM HN HD l j1 (G j1) vx vy G1) as D1.
    assert (D2 : (sqrt (G j2 * dist3 p (vol (Mx p) (Nx p) (Dx p) (fun a b' c => RtoC (u_of sph p l j1 vx a b' c))) (vol (Mx p) (Nx p) (Dx p) (fun a b' c => RtoC (u_of sph p l j1 vy a b' c)))) <=
      sqrt (G j1 * G j2 * dist3 p vx vy))%R) by (apply sqrt_le_1_alt; nra).
    assert (E2 : forall v, (sqrt (G j2 * energy3 p (vol (Mx p) (Nx p) (Dx p) (fun a b' c => RtoC (u_of sph p l j1 v a b' c)))) <= sqrt (G j1 * G j2 * energy3 p v))%R).
    { intros v. apply sqrt_le_1_alt. rewrite energy3_again. pose proof (u_of_energy_le sph p HM HN HD l j1 (G j1) v G1). nra. }
    split; intros E; rewrite E.
    + eapply Rle_trans; [apply (moment_1_close sph p HM HN HD l j2 (G j2) _ _ G2)|]. apply Rmult_le_compat_l; [apply sqrt_pos|exact D2].
    + eapply Rle_trans; [apply (moment_2_close sph p HM HN HD l j2 (G j2) _ _ G2)|]. apply Rmult_le_compat; [apply sqrt_pos|apply Rplus_le_le_0_compat; apply sqrt_pos|exact D2|].
      apply Rplus_le_compat; apply E2.
Qed.
Print Assumptions C117_mean_square.
Lemma dft_neg n x y k : (forall i, y i = RtoC (-1) * x i)%C -> dft_at n y k = (RtoC (-1) * dft_at n x k)%C.
Proof. intros H. unfold dft_at. rewrite <- csum_scal. apply csum_ext. intros i _. rewrite H. ring. Qed.
Lemma dft3_neg M N D x y u v w : (forall a b c, y a b c = RtoC (-1) * x a b c)%C -> dft3_at M N D y u v w = (RtoC (-1) * dft3_at M N D x u v w)%C.
Proof. intros H. unfold dft3_at, dft2_at. apply dft_neg. intros a. apply dft_neg. intros b. apply dft_neg. intros c. apply H. Qed.
(** The 4 x 2 x 3 volume 24..47 and its opposite: same power spectrum; their distance in mean square bounds the second-order
    coefficients of the path (0, 2) and degree 1. *)
Example C117_instance : exists s y y', new3 sph0 p_ex = Ok s /\ numpy_scattering3 s x_ex = Ok y /\ numpy_scattering3 s (scale3 (-1) x_ex) = Ok y' /\
  coef3 p_ex y' 1 2 1 1 = coef3 p_ex y 1 2 1 1 /\
  let g := (rsum3 4 2 3 (weight3 sph0 p_ex 1 0) * rsum3 4 2 3 (weight3 sph0 p_ex 1 2))%R in
  let v := volume 4 2 3 1 x_ex in let v' := volume 4 2 3 1 (scale3 (-1) x_ex) in
  let energy v := rsum3 4 2 3 (fun a b c => (Cmod (vox 2 3 v a b c) ^ 2)%R) in
  (Cmod (coef3 p_ex y 1 4 1 1 - coef3 p_ex y' 1 4 1 1)%C <=
   sqrt (g * rsum3 4 2 3 (fun a b c => Cmod (vox 2 3 v a b c - vox 2 3 v' a b c)%C ^ 2)) * (sqrt (g * energy v) + sqrt (g * energy v')))%R.
Proof.
  destruct p_ex_new as (s & Hs).
  destruct (C117_power_spectrum sph0 numpy_scattering3 p_ex s [2; 1]%nat x_ex (scale3 (-1) x_ex) (or_introl eq_refl) p_ex_valid Hs x_ex_ok (scale3_input _ _ _ _ x_ex_ok)) as (y & y' & H1 & H2 & H).
  destruct (C117_mean_square sph0 numpy_scattering3 p_ex s [2; 1]%nat x_ex (scale3 (-1) x_ex) (or_introl eq_refl) p_ex_valid Hs x_ex_ok (scale3_input _ _ _ _ x_ex_ok)) as (z & z' & H1' & H2' & H').
  rewrite H1 in H1'. injection H1' as <-. rewrite H2 in H2'. injection H2' as <-.
  exists s, y, y'. split; [exact Hs|]. split; [exact H1|]. split; [exact H2|]. split.
  - apply H; try (cbn; lia); [|reflexivity]. intros u v w Hu Hv Hw. rewrite volume_scale.
    rewrite (dft3_neg _ _ _ (vox (Nx p_ex) (Dx p_ex) (volume (Mx p_ex) (Nx p_ex) (Dx p_ex) 1 x_ex))).
    + rewrite Cmod_mult, Cmod_R, Rabs_left by lra. ring.
    + intros a b c. unfold vox. replace (RtoC 0) with (RtoC (-1) * RtoC 0)%C at 1 by ring. now rewrite map_nth.
  - set (G := fun j => rsum3 4 2 3 (weight3 sph0 p_ex 1 j)). intros g v v' energy.
    assert (P : forall j u t w, (0 <= weight3 sph0 p_ex 1 j u t w)%R).
    { intros j u t w. unfold weight3. cbn [h_rotation_covariant p_ex]. cbn [Nat.mul Nat.add seq map fold_right]. repeat apply Rplus_le_le_0_compat; try apply pow2_ge_0. lra. }
    destruct (H' 1%nat 1%nat 4%nat 1%nat (G 0%nat * G 2%nat)%R G) as [_ A]; try (cbn; lia).
    + intros j u t w Hj Hu Hv Hw. unfold G, rsum3.
      eapply Rle_trans; [|apply (rsum_term 4 (fun a => rsum 2 (fun b => rsum 3 (weight3 sph0 p_ex 1 j a b))) u); [|exact Hu]].
      2:{ intros i _. apply rsum_pos. intros i' _. apply rsum_pos. intros; apply P. }
      eapply Rle_trans; [|apply (rsum_term 2 (fun b => rsum 3 (weight3 sph0 p_ex 1 j u b)) t); [|exact Hv]].
      2:{ intros i _. apply rsum_pos. intros; apply P. }
      apply (rsum_term 3 (weight3 sph0 p_ex 1 j u t) w); [intros; apply P|exact Hw].
    + right. exists 0%nat, 2%nat. cbn. repeat split; try lia.
    + exact (A eq_refl).
Qed.
