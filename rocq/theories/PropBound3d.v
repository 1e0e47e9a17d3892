(** Property C118, continued: the coefficients of a volume are bounded by its norm. *)
From Coq Require Import String Reals ZArith List Bool Arith Lia Lra.
From Coquelicot Require Import Coquelicot.
From Verif Require Import Base BaseProofs NdArray NdProofs StackProofs Backend Backend2d Images ComplexOps Dft Conv1d Dft2 Mats FilterBank1d
  Backend3d Core3d FilterBank3d Frontend3d Dft3 Rows3d Eval3d Path3d Construct1d Invariance1d PropScat3d PropValues3d GaussIntegral PropNorm3d PropStability3d Energy3d PropEnergy3d PropContract3d.
Import ListNotations.
Local Open Scope Z_scope.

Theorem C118_bound : forall sph f p s batch x, runs3 f p -> valid3 p -> (0 < h_sigma_0 p)%R -> List.Forall (fun q => 0 <= q)%R (h_integral_powers p) ->
  (forall l, l <> 0%nat -> Z.of_nat l <= h_L p -> forall azimuthal polar,
     fold_right Rplus 0%R (map (fun i => pow (Cmod (sph (Z.of_nat i - Z.of_nat l) (Z.of_nat l) azimuthal polar)) 2) (seq 0 (2 * l + 1))) = ((2 * INR l + 1) / (4 * PI))%R) ->
  new3 sph p = Ok s -> input3 p batch x ->
  exists z, f s x = Ok z /\
  forall b i l q, (b < prod batch)%nat -> (i < n_paths (h_J p) (h_max_order p))%nat -> (l < Z.to_nat (h_L p + 1))%nat -> (q < List.length (h_integral_powers p))%nat ->
    let vx := volume (Mx p) (Nx p) (Dx p) b x in
    let energy := rsum3 (Mx p) (Nx p) (Dx p) (fun u v w => (Cmod (vox (Nx p) (Dx p) vx u v w) ^ 2)%R) in
    (nth q (h_integral_powers p) 0%R = 1%R -> (Cmod (coef3 p z b i l q) <= sqrt (INR (Mx p * (Nx p * Dx p)) * energy))%R) /\
    (nth q (h_integral_powers p) 0%R = 2%R -> (Cmod (coef3 p z b i l q) <= energy)%R).
Proof.
  intros sph f p s batch x Hf Hv Hs Hq0 Hsph Hn Hx.
  destruct (C118_contraction sph f p s batch x (scale3 0 x) Hf Hv Hs Hsph Hn Hx (scale3_input _ _ _ _ Hx)) as (z & z' & Ez & Ez' & H).
  exists z. split; [exact Ez|]. intros b i l q Hb Hi Hl Hq vx energy.
  pose proof (bank_ready sph (Mx p) (Nx p) (Dx p) (h_J p) (h_L p) (h_sigma_0 p)) as HF.
  pose proof Hn as Hn'. rewrite (new3_ok sph p Hv) in Hn'. injection Hn' as <-.
  match type of Ez' with f (mk_scat3 _ ?F ?g) _ = _ => destruct (C75_homogeneity f p F g batch x 0 Hf Hv HF Hx Hq0) as (y & y' & Ey & Ey' & _ & Hy) end.
  rewrite Ez' in Ey'. injection Ey' as <-. assert (y = z) by congruence. subst y.
  destruct (H b i l q Hb Hi Hl Hq) as [H1 H2]. clear H.
  pose proof (valid3_sizes p Hv) as (_ & _ & _ & HM & HN & HD).
  assert (Zx : forall u v w, (u < Mx p)%nat -> (v < Nx p)%nat -> (w < Dx p)%nat -> vox (Nx p) (Dx p) (volume (Mx p) (Nx p) (Dx p) b (scale3 0 x)) u v w = RtoC 0).
  { intros u v w Hu Hv' Hw. unfold vox. rewrite volume_scale. rewrite (nth_map_any _ _ _ _ (RtoC 0)); [|rewrite (volume_length p batch b x Hx Hb); now apply (vox_lt (Mx p))]. apply Cmult_0_l. }
  assert (Ze : rsum3 (Mx p) (Nx p) (Dx p) (fun u v w => (Cmod (vox (Nx p) (Dx p) (volume (Mx p) (Nx p) (Dx p) b (scale3 0 x)) u v w) ^ 2)%R) = 0%R).
  { rewrite (rsum3_ext _ _ _ _ (fun _ _ _ => 0 * 0)%R) by (intros u v w Hu Hv' Hw; rewrite Zx, Cmod_0 by assumption; ring). rewrite rsum3_scal. ring. }
  assert (De : rsum3 (Mx p) (Nx p) (Dx p) (fun u v w => (Cmod (vox (Nx p) (Dx p) vx u v w - vox (Nx p) (Dx p) (volume (Mx p) (Nx p) (Dx p) b (scale3 0 x)) u v w)%C ^ 2)%R) = energy).
  { apply rsum3_ext. intros u v w Hu Hv' Hw. rewrite Zx by assumption. do 2 f_equal. ring. }
  fold vx in H1, H2. rewrite De in H1, H2. rewrite Ze, sqrt_0 in H2.
  assert (He : (0 <= energy)%R) by (apply rsum3_pos; intros; apply pow2_ge_0).
  assert (C0 : (0 < nth q (h_integral_powers p) 0)%R -> coef3 p z' b i l q = RtoC 0).
  { intros P. rewrite Hy by assumption. rewrite Rabs_R0, rpow_0 by exact P. apply Cmult_0_l. }
  split; intros Eq; [specialize (H1 Eq)|specialize (H2 Eq)]; rewrite C0 in * by (rewrite Eq; lra).
  - replace (coef3 p z b i l q - RtoC 0)%C with (coef3 p z b i l q) in H1 by ring. rewrite sqrt_mult by (try apply pos_INR; exact He). exact H1.
  - replace (coef3 p z b i l q - RtoC 0)%C with (coef3 p z b i l q) in H2 by ring. fold energy in H2. rewrite Rplus_0_r, sqrt_sqrt in H2 by exact He. exact H2.
Qed.
Print Assumptions C118_bound.
(** The harmonics of constant modulus 1/sqrt(4 pi), degree 1, on two volumes of 4 x 2 x 3 voxels; path (0, 2), power 2. *)
Example C118_bound_instance : let sph := (fun _ _ _ _ => RtoC (sqrt (/ (4 * PI)))) : Z -> Z -> R -> R -> C in
  exists s z, new3 sph p_ex = Ok s /\ numpy_scattering3 s x_ex = Ok z /\
  (Cmod (coef3 p_ex z 1 4 1 1) <= rsum3 4 2 3 (fun a b c => Cmod (vox 2 3 (volume 4 2 3 1 x_ex) a b c) ^ 2))%R.
Proof.
  pose proof PI_RGT_0 as HP. intros sph. pose proof (new3_ok sph p_ex p_ex_valid) as Hs.
  match type of Hs with _ = Ok ?t => set (s := t) in Hs end.
  destruct (C118_bound sph numpy_scattering3 p_ex s [2; 1]%nat x_ex (or_introl eq_refl) p_ex_valid) as (z & H1 & H); [cbn; lra|repeat constructor; lra| |exact Hs|exact x_ex_ok|].
  - intros l _ _ az po. unfold sph. rewrite Cmod_R, Rabs_right by (apply Rle_ge, sqrt_pos). rewrite pow2_sqrt by (left; apply Rinv_0_lt_compat; lra).
    replace (2 * INR l + 1)%R with (INR (2 * l + 1)) by (rewrite plus_INR, mult_INR; cbn [INR]; ring).
    assert (G : forall n b, fold_right Rplus 0%R (map (fun _ : nat => / (4 * PI))%R (seq b n)) = (INR n / (4 * PI))%R).
    { induction n as [|n IH]; intros b; [cbn; field; lra|]. cbn [seq map fold_right]. rewrite IH, S_INR. field. lra. }
    apply G.
  - exists s, z. split; [exact Hs|]. split; [exact H1|]. destruct (H 1%nat 4%nat 1%nat 1%nat) as [_ A]; try (cbn; lia). exact (A eq_refl).
Qed.
