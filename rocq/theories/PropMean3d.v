(** Property C120: at degrees above 0, HarmonicScattering3D does not see a constant added to the volumes, when their sizes are even. *)
From Coq Require Import String Reals ZArith List Bool Arith Lia Lra.
From Coquelicot Require Import Coquelicot.
From Verif Require Import Base BaseProofs NdArray NdProofs StackProofs Backend Backend2d Images ComplexOps Dft Conv1d Dft2 Mats FilterBank1d
  Backend3d Core3d FilterBank3d Frontend3d Dft3 Rows3d Eval3d Path3d Construct1d Invariance1d PropScat3d PropValues3d GaussIntegral PropNorm3d PropStability3d Energy3d PropEnergy3d PropContract3d.
Import ListNotations.
Local Open Scope Z_scope.

Section Constants.
Variables (sph : Z -> Z -> R -> R -> C) (p : params3).
Notation M := (Mx p). Notation N := (Nx p). Notation D := (Dx p).
Hypothesis (HM : (0 < M)%nat) (HN : (0 < N)%nat) (HD : (0 < D)%nat).

Lemma amp3_add l j m v v' (k : C) a b c : solid_harmonic_at sph (h_sigma_0 p * 2 ^ j) l m (freq M 0) (freq N 0) (freq D 0) = RtoC 0 ->
  (forall a b c, (a < M)%nat -> (b < N)%nat -> (c < D)%nat -> vox N D v' a b c = (vox N D v a b c + k)%C) ->
  amp3 sph p l j m v' a b c = amp3 sph p l j m v a b c.
Proof.
  intros H0 Hk. unfold amp3. f_equal. set (h := psi3 sph p l j m).
  assert (E : conv3 M N D (minus3 p v' v) h (Z.of_nat a) (Z.of_nat b) (Z.of_nat c) = RtoC 0).
  { rewrite (conv3_ext M N D _ (vol M N D (fun _ _ _ => k))).
    - unfold h, psi3. rewrite conv3_const by assumption. rewrite vox_vol by assumption. rewrite H0. ring.
    - intros a' b' c' Ha Hb Hc. unfold minus3. rewrite !vox_vol by assumption. rewrite Hk by assumption. ring. }
  rewrite conv3_minus in E by assumption. set (P := conv3 M N D v' h _ _ _) in *. set (Q := conv3 M N D v h _ _ _) in *. replace P with (Q + (P - Q))%C by ring. rewrite E. ring.
Qed.
Lemma amp3_const l j m (k : C) a b c :
  amp3 sph p l j m (const3 M N D k) a b c = (Cmod k * Cmod (solid_harmonic_at sph (h_sigma_0 p * 2 ^ j) l m (freq M 0) (freq N 0) (freq D 0)))%R.
Proof. unfold amp3, psi3, const3. rewrite conv3_const by assumption. rewrite vox_vol by assumption. apply Cmod_mult. Qed.
Lemma u_of_const l j (k : C) a b c : u_of sph p l j (const3 M N D k) a b c = (Cmod k * sqrt (weight3 sph p l j 0 0 0))%R.
Proof.
  unfold u_of, weight3. destruct (h_rotation_covariant p).
  - rewrite (map_ext _ (fun i => Cmod k ^ 2 * Cmod (solid_harmonic_at sph (h_sigma_0 p * 2 ^ j) l (Z.of_nat i - Z.of_nat l) (freq M 0) (freq N 0) (freq D 0)) ^ 2)%R)
      by (intros i; rewrite amp3_const; apply Rpow_mult_distr).
    rewrite <- (map_map (fun i => Cmod (solid_harmonic_at sph (h_sigma_0 p * 2 ^ j) l (Z.of_nat i - Z.of_nat l) (freq M 0) (freq N 0) (freq D 0)) ^ 2)%R (Rmult (Cmod k ^ 2))).
    pose proof sum_of_scal as S. unfold Rows3d.sum_of in S. rewrite S. rewrite sqrt_mult_alt by apply pow2_ge_0. now rewrite sqrt_pow2 by apply Cmod_ge_0.
  - rewrite amp3_const. now rewrite sqrt_pow2 by apply Cmod_ge_0.
Qed.
End Constants.

(** ** C120 *)
(** Each volume of [x'] is a volume of [x] plus a constant, which may depend on the volume. *)
Theorem C120_adding_partial : forall sph f p s batch x x', runs3 f p -> valid3 p -> Nat.even (Mx p) = true -> Nat.even (Nx p) = true -> Nat.even (Dx p) = true ->
  new3 sph p = Ok s -> input3 p batch x -> input3 p batch x' ->
  (forall b, (b < prod batch)%nat -> exists k : R, forall i j l, (i < Mx p)%nat -> (j < Nx p)%nat -> (l < Dx p)%nat ->
     vox (Nx p) (Dx p) (volume (Mx p) (Nx p) (Dx p) b x') i j l = (vox (Nx p) (Dx p) (volume (Mx p) (Nx p) (Dx p) b x) i j l + RtoC k)%C) ->
  exists y y', f s x = Ok y /\ f s x' = Ok y' /\
  forall b i l q, (b < prod batch)%nat -> (i < n_paths (h_J p) (h_max_order p))%nat -> (0 < l)%nat -> (l < Z.to_nat (h_L p + 1))%nat -> (q < List.length (h_integral_powers p))%nat ->
    coef3 p y' b i l q = coef3 p y b i l q.
Proof.
  intros sph f p s batch x x' Hf Hv EM EN ED Hn Hx Hx' Hk. rewrite (new3_ok sph p Hv) in Hn. injection Hn as <-.
  pose proof (bank_ready sph (Mx p) (Nx p) (Dx p) (h_J p) (h_L p) (h_sigma_0 p)) as HF. pose proof (valid3_sizes p Hv) as (_ & _ & _ & HM & HN & HD).
  do 2 eexists. split; [apply runs3_of; eassumption|]. split; [apply runs3_of; eassumption|]. intros b i l q Hb Hi Hl0 Hl Hq. rewrite !out_coef by assumption.
  destruct (Hk b Hb) as (k & Ek). f_equal.
  assert (HJ : 0 <= h_J p) by apply Hv. assert (HL : 0 <= h_L p) by apply Hv.
  assert (G : forall j, 0 <= j <= h_J p -> forall rest,
    U_path (Mx p) (Nx p) (Dx p) (h_rotation_covariant p) (solid_harmonic_filter_bank sph (Mx p) (Nx p) (Dx p) (h_J p) (h_L p) (h_sigma_0 p)) (Z.of_nat l) (volume (Mx p) (Nx p) (Dx p) b x') (j :: rest) =
    U_path (Mx p) (Nx p) (Dx p) (h_rotation_covariant p) (solid_harmonic_filter_bank sph (Mx p) (Nx p) (Dx p) (h_J p) (h_L p) (h_sigma_0 p)) (Z.of_nat l) (volume (Mx p) (Nx p) (Dx p) b x) (j :: rest)).
  { intros j Hj rest. unfold U_path. cbn [fold_left]. f_equal. replace j with (Z.of_nat (Z.to_nat j)) by lia. rewrite !U3_bank by lia. apply vol_ext. intros a b' c Ha Hb' Hc. f_equal.
    assert (A : forall m, amp3 sph p l (Z.to_nat j) m (volume (Mx p) (Nx p) (Dx p) b x') a b' c = amp3 sph p l (Z.to_nat j) m (volume (Mx p) (Nx p) (Dx p) b x) a b' c).
    { intros m. apply (amp3_add sph p HM HN HD _ _ _ _ _ (RtoC k)); [|exact Ek]. rewrite !freq_origin_even by assumption. rewrite harmonic_origin. destruct (Nat.eqb_spec l 0); [lia|reflexivity]. }
    unfold u_of. destruct (h_rotation_covariant p); [|apply A]. do 2 f_equal. apply map_ext. intros i'. now rewrite A. }
  destruct (C49_paths (h_J p) (h_max_order p) HJ) as (_ & _ & _ & P).
  assert (Hin : In (nth i (paths3 (h_J p) (h_max_order p)) []) (paths3 (h_J p) (h_max_order p))) by (apply nth_In; rewrite paths3_length by exact HJ; exact Hi).
  apply P in Hin as [(j & -> & Hj)|(_ & j1 & j2 & -> & Hj)]; apply G; lia.
Qed.
Print Assumptions C120_adding_partial.

(** One odd size is enough to lose the property, at every degree and first-order path: the coefficients of a constant volume are those of
    the zero volume, that is 0, only if the constant is 0. *)
Theorem C120_odd_refuted : forall sph f p s batch x k, runs3 f p -> valid3 p -> (0 < h_sigma_0 p)%R -> h_rotation_covariant p = true ->
  Nat.odd (Mx p) = true \/ Nat.odd (Nx p) = true \/ Nat.odd (Dx p) = true ->
  (forall l, l <> 0%nat -> Z.of_nat l <= h_L p -> forall azimuthal polar,
     fold_right Rplus 0%R (map (fun i => pow (Cmod (sph (Z.of_nat i - Z.of_nat l) (Z.of_nat l) azimuthal polar)) 2) (seq 0 (2 * l + 1))) = ((2 * INR l + 1) / (4 * PI))%R) ->
  List.Forall (fun q => 0 < q)%R (h_integral_powers p) -> new3 sph p = Ok s -> input3 p batch x -> (forall z, In z (nd_data x) -> z = RtoC k) ->
  exists y, f s x = Ok y /\
  forall b j l q, (b < prod batch)%nat -> Z.of_nat j <= h_J p -> (l < Z.to_nat (h_L p + 1))%nat -> (q < List.length (h_integral_powers p))%nat ->
    exists r : R, coef3 p y b j l q = RtoC r /\ (k = 0%R -> r = 0%R) /\ (k <> 0%R -> (0 < r)%R).
Proof.
  intros sph f p s batch x k Hf Hv Hs Hcov Hodd Hsph Hpos Hn Hx Hk. pose proof (valid3_sizes p Hv) as (_ & _ & _ & HM & HN & HD).
  destruct (C73_first_order sph f p s batch x Hf Hv Hn Hx) as (y & Ey & H). exists y. split; [exact Ey|]. intros b j l q Hb Hj Hl Hq.
  assert (Hq0 : (0 < nth q (h_integral_powers p) 0)%R) by (rewrite List.Forall_forall in Hpos; apply Hpos, nth_In, Hq).
  rewrite H by (try assumption; lia). rewrite (volume_const p batch x k b Hx Hk Hb).
  set (w := sqrt (weight3 sph p l j 0 0 0)).
  assert (Hw : (0 < w)%R).
  { unfold w, weight3. rewrite Hcov. fold (energy (fun m => solid_harmonic_at sph (h_sigma_0 p * 2 ^ j) l m (freq (Mx p) 0) (freq (Nx p) 0) (freq (Dx p) 0)) l).
    assert (Hsj : (0 < h_sigma_0 p * 2 ^ j)%R) by (apply Rmult_lt_0_compat; [exact Hs|apply pow_lt; lra]).
    destruct (C93_fourier_energy sph (h_sigma_0 p * 2 ^ j) l (freq (Mx p) 0) (freq (Nx p) 0) (freq (Dx p) 0) (GaussIntegral.moment (l + 2)) Hsj) as (Hm & E);
      [intros L0 az po; (apply Hsph; [exact L0|lia])|apply moment_lim|].
    rewrite E. pose proof PI_RGT_0. apply Rmult_lt_0_compat; [apply Rdiv_lt_0_compat; [apply sqrt_lt_R0; lra|exact Hm]|].
    apply Rmult_lt_0_compat; [|apply exp_pos]. apply pow_lt, Rmult_lt_0_compat; [exact Hsj|]. apply sqrt_lt_R0.
    assert (Q : forall n, (0 < n)%nat -> Nat.odd n = true -> (0 < freq n 0 ^ 2)%R).
    { intros n Hn0 On. apply pow2_gt_0. unfold freq. rewrite grid_origin_odd by exact On. apply Rmult_integral_contrapositive. split; [lra|]. apply Rgt_not_eq, Rdiv_lt_0_compat; [lra|]. now apply lt_0_INR. }
    pose proof (pow2_ge_0 (freq (Mx p) 0)). pose proof (pow2_ge_0 (freq (Nx p) 0)). pose proof (pow2_ge_0 (freq (Dx p) 0)).
    destruct Hodd as [O|[O|O]]; [pose proof (Q _ HM O)|pose proof (Q _ HN O)|pose proof (Q _ HD O)]; lra. }
  exists (INR (Mx p * (Nx p * Dx p)) * rpow (Rabs k * w) (nth q (h_integral_powers p) 0))%R.
  assert (E : moment3 p (nth q (h_integral_powers p) 0%R) (u_of sph p l j (const3 (Mx p) (Nx p) (Dx p) (RtoC k))) =
    RtoC (INR (Mx p * (Nx p * Dx p)) * rpow (Rabs k * w) (nth q (h_integral_powers p) 0))%R).
  { rewrite <- (integral_const (Mx p) (Nx p) (Dx p)). unfold const3 at 2. rewrite integral_vol. unfold moment3. apply csum3_ext. intros a b' c _ _ _. rewrite u_of_const by assumption. rewrite Cmod_R. reflexivity. }
  split; [exact E|]. split.
  - intros ->. rewrite Rabs_R0, Rmult_0_l, rpow_0 by exact Hq0. ring.
  - intros Hk0. pose proof (Rabs_pos_lt _ Hk0). assert (P : (0 < Rabs k * w)%R) by now apply Rmult_lt_0_compat. rewrite rpow_pos by exact P.
    apply Rmult_lt_0_compat; [apply lt_0_INR; nia|apply exp_pos].
Qed.
Print Assumptions C120_odd_refuted.

(** Two volumes of 4 x 2 x 2 voxels, to which 7 is added; path (0, 2), degree 1, power 2. *)
Example C120_instance : let p := mk_params3 2 4 2 2 1 1 2 true "integral" [1%R; 2%R] in
  let x := mk_nd Real [2; 4; 2; 2]%nat (map (fun n => RtoC (INR n)) (seq 0 32)) in let x' := mk_nd Real [2; 4; 2; 2]%nat (map (fun n => RtoC (INR n + 7)) (seq 0 32)) in
  exists s y y', new3 sph0 p = Ok s /\ numpy_scattering3 s x = Ok y /\ numpy_scattering3 s x' = Ok y' /\ coef3 p y' 1 4 1 1 = coef3 p y 1 4 1 1.
Proof.
  intros p x x'. assert (Hv : valid3 p) by (unfold valid3, p; cbn; repeat split; try lia; [lra|discriminate]). pose proof (new3_ok sph0 p Hv) as Hs.
  match type of Hs with _ = Ok ?t => set (s := t) in Hs end.
  assert (Hx : input3 p [2%nat] x) by (repeat split; cbn; lia). assert (Hx' : input3 p [2%nat] x') by (repeat split; cbn; lia).
  destruct (C120_adding_partial sph0 numpy_scattering3 p s [2%nat] x x' (or_introl eq_refl) Hv eq_refl eq_refl eq_refl Hs Hx Hx') as (y & y' & E & E' & H).
  - intros b Hb. exists 7%R. intros i j l Hi Hj Hl. change (prod [2%nat]) with 2%nat in Hb. change (Mx p) with 4%nat in *. change (Nx p) with 2%nat in *. change (Dx p) with 2%nat in *.
    unfold vox, volume, block, x, x'. cbn [nd_data]. rewrite !skipn_map, !firstn_map.
    set (L := firstn _ (skipn _ (seq 0 32))). set (n := ((i * 2 + j) * 2 + l)%nat).
    assert (HL : (n < List.length L)%nat) by (unfold L, n; rewrite firstn_length, skipn_length, seq_length; nia).
    rewrite !(nth_indep _ (RtoC 0) (RtoC (INR 0 + 7))) by (rewrite map_length; exact HL).
    rewrite (map_nth (fun n => RtoC (INR n + 7)) L 0%nat n). rewrite (nth_indep _ (RtoC (INR 0 + 7)) (RtoC (INR 0))) by (rewrite map_length; exact HL).
    rewrite (map_nth (fun n => RtoC (INR n)) L 0%nat n). apply RtoC_plus.
  - exists s, y, y'. split; [exact Hs|]. split; [exact E|]. split; [exact E'|]. apply H; cbn; lia.
Qed.
(** Two volumes of 4 x 2 x 3 voxels, all equal to 5; the harmonics have constant modulus 1/sqrt(4 pi). *)
Example C120_odd_instance : let sph := (fun _ _ _ _ => RtoC (sqrt (/ (4 * PI)))) : Z -> Z -> R -> R -> C in
  let x := mk_nd Real [2; 4; 2; 3]%nat (repeat (RtoC 5) 48) in
  exists s y r, new3 sph p_ex = Ok s /\ numpy_scattering3 s x = Ok y /\ coef3 p_ex y 1 2 1 0 = RtoC r /\ (0 < r)%R.
Proof.
  pose proof PI_RGT_0 as HP. intros sph x. pose proof (new3_ok sph p_ex p_ex_valid) as Hs.
  match type of Hs with _ = Ok ?t => set (s := t) in Hs end.
  assert (Hx : input3 p_ex [2%nat] x) by (repeat split; cbn; lia).
  destruct (C120_odd_refuted sph numpy_scattering3 p_ex s [2%nat] x 5 (or_introl eq_refl) p_ex_valid) as (y & E & H); [cbn; lra|reflexivity|right; right; reflexivity| |repeat constructor; lra|exact Hs|exact Hx| |].
  - intros l _ _ az po. unfold sph. rewrite Cmod_R, Rabs_right by (apply Rle_ge, sqrt_pos). rewrite pow2_sqrt by (left; apply Rinv_0_lt_compat; lra).
    replace (2 * INR l + 1)%R with (INR (2 * l + 1)) by (rewrite plus_INR, mult_INR; cbn [INR]; ring).
    assert (G : forall n b, fold_right Rplus 0%R (map (fun _ : nat => / (4 * PI))%R (seq b n)) = (INR n / (4 * PI))%R).
    { induction n as [|n IH]; intros b; [cbn; field; lra|]. cbn [seq map fold_right]. rewrite IH, S_INR. field. lra. }
    apply G.
  - intros z Hz. exact (repeat_spec _ _ _ Hz).
  - destruct (H 1%nat 2%nat 1%nat 0%nat) as (r & Er & _ & Hr); try (cbn; lia). exists s, y, r. split; [exact Hs|]. split; [exact E|]. split; [exact Er|]. apply Hr. lra.
Qed.
