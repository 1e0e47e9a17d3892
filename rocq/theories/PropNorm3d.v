(** Property C93: the solid harmonic wavelets have unit mass in space, and their energy and the Gaussian filters are the
    expected functions of frequency. *)
From Coq Require Import String Reals ZArith List Bool Arith Lia Lra Factorial.
From Coquelicot Require Import Coquelicot.
From Verif Require Import Base BaseProofs NdArray NdProofs StackProofs Backend Backend2d Images ComplexOps Dft Conv1d Dft2 Mats
  Backend3d Core3d FilterBank3d Frontend3d Dft3 Rows3d Eval3d Path3d PropScat3d PropValues3d GaussIntegral.
Import ListNotations.
Local Open Scope R_scope.

(** ** The moments in closed form *)
Lemma moment_SS k : moment (S (S k)) = INR (S k) * moment k.
Proof. reflexivity. Qed.
Lemma df_SS k : double_factorial (S (S k)) = (S (S k) * double_factorial k)%nat.
Proof. reflexivity. Qed.
Lemma moment_even k : moment (2 * S k) = INR (double_factorial (2 * k + 1)) * sqrt (PI / 2).
Proof.
  induction k as [|k IH].
  - cbn. lra.
  - replace (2 * S (S k))%nat with (S (S (2 * S k))) by lia. rewrite moment_SS, IH.
    replace (2 * S k + 1)%nat with (S (S (2 * k + 1))) by lia. rewrite df_SS, mult_INR. replace (S (2 * S k))%nat with (S (S (2 * k + 1))) by lia. ring.
Qed.
Lemma moment_odd k : moment (2 * k + 1) = pow 2 k * INR (fact k).
Proof.
  induction k as [|k IH]; [cbn; lra|]. replace (2 * S k + 1)%nat with (S (S (2 * k + 1))) by lia. rewrite moment_SS, IH.
  cbn [pow fact]. rewrite mult_INR. replace (S (2 * k + 1))%nat with (2 * S k)%nat by lia. rewrite mult_INR. cbn [INR]. ring.
Qed.
Lemma norm_mass l : norm_at_degree l * (4 * PI * sqrt ((2 * INR l + 1) / (4 * PI))) * moment (l + 2) = 1.
Proof.
  pose proof PI_RGT_0 as HP. pose proof (pos_INR l) as Hl. unfold norm_at_degree. destruct (Nat.even l) eqn:E.
  - apply Nat.even_spec in E as (k & ->). replace (2 * k + 2)%nat with (2 * S k)%nat by lia. rewrite moment_even.
    assert (HD : 0 < INR (double_factorial (2 * k + 1))).
    { apply lt_0_INR. clear. induction k as [|k IH]; [cbn; lia|]. replace (2 * S k + 1)%nat with (S (S (2 * k + 1))) by lia. rewrite df_SS. lia. }
    assert (HS : sqrt ((2 * INR (2 * k) + 1) / (4 * PI)) * sqrt (PI / 2) = sqrt (INR (2 * k) + / 2) / 2).
    { rewrite <- sqrt_mult_alt by (apply Rdiv_le_0_compat; lra).
      replace ((2 * INR (2 * k) + 1) / (4 * PI) * (PI / 2)) with ((INR (2 * k) + / 2) / 4) by (field; lra).
      rewrite sqrt_div_alt by lra. replace 4 with (pow 2 2) by ring. rewrite sqrt_pow2 by lra. reflexivity. }
    assert (H0 : 0 < sqrt (INR (2 * k) + / 2)) by (apply sqrt_lt_R0; lra).
    set (A := sqrt ((2 * INR (2 * k) + 1) / (4 * PI))) in *. set (B := sqrt (PI / 2)) in *. set (S2 := sqrt (INR (2 * k) + / 2)) in *. set (Df := INR (double_factorial (2 * k + 1))) in *.
    replace (1 / (2 * PI * S2 * Df) * (4 * PI * A) * (Df * B)) with (2 / S2 * (A * B)) by (field; lra). rewrite HS. field. lra.
  - assert (O : Nat.odd l = true) by (unfold Nat.odd; now rewrite E). apply Nat.odd_spec in O as (k & ->). replace (2 * k + 1 + 2)%nat with (2 * S k + 1)%nat by lia. rewrite moment_odd.
    replace (2 * k + 1 + 1)%nat with (S k * 2)%nat by lia. rewrite Nat.div_mul by lia.
    assert (HF : 0 < INR (fact (S k))) by (apply lt_0_INR, lt_O_fact). assert (H2 : 0 < pow 2 (S k)) by (apply pow_lt; lra).
    assert (ER : Rpower 2 (/ 2 * (INR (2 * k + 1) + 3)) = 2 * pow 2 (S k)).
    { replace (/ 2 * (INR (2 * k + 1) + 3)) with (INR (S (S k))) by (rewrite !S_INR, plus_INR, mult_INR; cbn [INR]; field). rewrite Rpower_pow by lra. reflexivity. }
    rewrite ER. set (n := INR (2 * k + 1)) in *.
    assert (HS : 2 * PI * sqrt ((2 * n + 1) / (4 * PI)) = sqrt (PI * (2 * n + 1))).
    { rewrite <- (sqrt_pow2 (2 * PI)) by lra. rewrite <- sqrt_mult_alt by (apply pow2_ge_0). f_equal. field. lra. }
    assert (H0 : 0 < sqrt (PI * (2 * n + 1))) by (apply sqrt_lt_R0, Rmult_lt_0_compat; lra).
    replace (4 * PI * sqrt ((2 * n + 1) / (4 * PI))) with (2 * sqrt (PI * (2 * n + 1))) by (rewrite <- HS; ring). field. lra.
Qed.
Lemma norm_pos l : 0 < norm_at_degree l.
Proof.
  pose proof PI_RGT_0 as HP. pose proof (pos_INR l) as Hl. unfold norm_at_degree. destruct (Nat.even l) eqn:E; apply Rdiv_lt_0_compat; try lra.
  - apply Nat.even_spec in E as (k & ->). apply Rmult_lt_0_compat; [apply Rmult_lt_0_compat; [lra|apply sqrt_lt_R0; lra]|].
    apply lt_0_INR. clear. induction k as [|k IH]; [cbn; lia|]. replace (2 * S k + 1)%nat with (S (S (2 * k + 1))) by lia. rewrite df_SS. lia.
  - apply Rmult_lt_0_compat; [|apply lt_0_INR, lt_O_fact]. apply Rmult_lt_0_compat; [unfold Rpower; apply exp_pos|]. apply sqrt_lt_R0, Rmult_lt_0_compat; lra.
Qed.
Lemma norm_zero : norm_at_degree 0 * sqrt (/ (4 * PI)) = / Rpower (2 * PI) (3 / 2).
Proof.
  pose proof PI_RGT_0 as HP.
  replace (Rpower (2 * PI) (3 / 2)) with (2 * PI * sqrt (2 * PI)).
  - unfold norm_at_degree. cbn [Nat.even INR]. change (double_factorial (0 + 1)) with 1%nat. cbn [INR]. rewrite Rplus_0_l, Rmult_1_r.
    assert (H1 : sqrt (/ (4 * PI)) * sqrt (2 * PI) = sqrt (/ 2)).
    { rewrite <- sqrt_mult_alt by (left; apply Rinv_0_lt_compat; lra). f_equal. field. lra. }
    assert (H2 : 0 < sqrt (/ 2)) by (apply sqrt_lt_R0; lra). assert (H3 : 0 < sqrt (2 * PI)) by (apply sqrt_lt_R0; lra).
    replace (sqrt (/ (4 * PI))) with (sqrt (/ 2) / sqrt (2 * PI)) by (rewrite <- H1; field; lra). field. lra.
  - replace (3 / 2) with (1 + / 2) by field. rewrite Rpower_plus, Rpower_1, Rpower_sqrt by lra. reflexivity.
Qed.

(** ** The energy over the orders m *)
Section Energy.
Variables (sph : Z -> Z -> R -> R -> C).
(** The squared modulus summed over m = -l..l. *)
Definition energy (psi : Z -> C) (l : nat) : R := fold_right Rplus 0 (map (fun i => pow (Cmod (psi (Z.of_nat i - Z.of_nat l)%Z)) 2) (seq 0 (2 * l + 1))).
(** The addition theorem of spherical harmonics, at equal arguments. *)
Definition addition_theorem (l : nat) : Prop := forall azimuthal polar, energy (fun m => sph m (Z.of_nat l) azimuthal polar) l = (2 * INR l + 1) / (4 * PI).

Lemma energy_scal (k : C) psi l : energy (fun m => (psi m * k)%C) l = energy psi l * pow (Cmod k) 2.
Proof.
  unfold energy. induction (seq 0 (2 * l + 1)) as [|i s IH]; cbn [map fold_right]; [ring|]. rewrite IH, Cmod_mult. ring.
Qed.
Lemma energy_ext psi psi' l : (forall m, psi m = psi' m) -> energy psi l = energy psi' l.
Proof. intros H. unfold energy. f_equal. apply map_ext. intros i. now rewrite H. Qed.
Lemma cmod_cpow n : Cmod (cpow_nat (- Ci)%C n) = 1.
Proof.
  induction n as [|n IH]; cbn [cpow_nat]; [apply Cmod_1|]. rewrite Cmod_mult, IH, Cmod_opp, Rmult_1_r. unfold Cmod, Ci. cbn [fst snd]. replace (pow 0 2 + pow 1 2) with 1 by ring. apply sqrt_1.
Qed.
Lemma energy_point (fourier : bool) sigma l f1 f2 f3 : (l <> 0%nat -> addition_theorem l) -> 0 < sigma ->
  let s := if fourier then 1 / sigma else sigma in let rho := sqrt (pow f1 2 + pow f2 2 + pow f3 2) in
  sqrt (energy (fun m => solid_harmonic_point sph fourier sigma l m f1 f2 f3) l) =
  pow (rho / s) l * exp (- (1 / 2) * pow (rho / s) 2) * (norm_at_degree l * sqrt ((2 * INR l + 1) / (4 * PI))) * (if fourier then Rpower (2 * PI) (3 / 2) else / pow s 3).
Proof.
  intros Hsph Hsig s rho. pose proof PI_RGT_0 as HP. pose proof (pos_INR l) as Hl.
  assert (Hs : 0 < s) by (unfold s; destruct fourier; [apply Rdiv_lt_0_compat; lra|exact Hsig]).
  assert (Hr : 0 <= rho) by apply sqrt_pos. set (q := pow f1 2 + pow f2 2 + pow f3 2) in *.
  assert (Hq : 0 <= q) by (unfold q; pose proof (pow2_ge_0 f1); pose proof (pow2_ge_0 f2); pose proof (pow2_ge_0 f3); lra).
  assert (Eq : q = pow rho 2) by (unfold rho; now rewrite pow2_sqrt).
  assert (Ee : exp (- (1 / 2) * q / pow s 2) = exp (- (1 / 2) * pow (rho / s) 2)).
  { f_equal. rewrite Eq. field. lra. }
  assert (Hp3 : 0 < Rpower (2 * PI) (3 / 2)) by (unfold Rpower; apply exp_pos).
  unfold solid_harmonic_point. cbv zeta. fold s. fold q. destruct (Nat.eqb_spec l 0) as [E|E].
  - subst l. rewrite Ee. unfold energy. change (seq 0 (2 * 0 + 1)) with [0%nat]. cbn [map fold_right INR]. rewrite Rplus_0_r.
    replace ((2 * 0 + 1) / (4 * PI)) with (/ (4 * PI)) by (field; lra). rewrite norm_zero, pow_O, Rmult_1_l.
    rewrite sqrt_pow2 by apply Cmod_ge_0. pose proof (exp_pos (- (1 / 2) * pow (rho / s) 2)) as He. set (e := exp (- (1 / 2) * pow (rho / s) 2)) in *.
    destruct fourier; rewrite Cmod_R.
    + rewrite Rabs_right by lra. field. lra.
    + assert (0 < pow s 3) by (now apply pow_lt). rewrite Rabs_right; [field; lra|]. apply Rle_ge. apply Rdiv_le_0_compat; [lra|]. now apply Rmult_lt_0_compat.
  - destruct (angles f1 f2 f3) as [po az].
    set (A := sqrt (pow q l) * exp (- (1 / 2) * q / pow s 2) / pow s l).
    rewrite (energy_ext _ (fun m => (sph m (Z.of_nat l) az po * (RtoC A * norm_factor fourier s l))%C)) by (intros; ring).
    rewrite energy_scal, (Hsph E). rewrite sqrt_mult_alt by (apply Rdiv_le_0_compat; lra). rewrite sqrt_pow2 by apply Cmod_ge_0.
    assert (EA : A = pow (rho / s) l * exp (- (1 / 2) * pow (rho / s) 2)).
    { unfold A. rewrite Ee. set (e := exp (- (1 / 2) * pow (rho / s) 2)). rewrite Eq. rewrite <- pow_mult, Nat.mul_comm, pow_mult, sqrt_pow2 by (now apply pow_le).
      unfold Rdiv. rewrite Rpow_mult_distr, pow_inv by lra. ring. }
    assert (HA : 0 <= A) by (rewrite EA; apply Rmult_le_pos; [apply pow_le, Rdiv_le_0_compat; lra|left; apply exp_pos]).
    pose proof (norm_pos l) as Hn. rewrite Cmod_mult, Cmod_R, (Rabs_right A) by lra. rewrite <- EA.
    unfold norm_factor. destruct fourier.
    + rewrite Cmod_mult, cmod_cpow, Cmod_R, Rabs_right by (apply Rle_ge, Rmult_le_pos; lra). ring.
    + assert (0 < pow s 3) by (apply pow_lt; lra). rewrite Cmod_R, Rabs_right by (apply Rle_ge, Rdiv_le_0_compat; lra). unfold Rdiv. ring.
Qed.
End Energy.

(** ** C93 *)
(** In space (fourier=False), along every direction u the integral of 4 pi r^2 times the root of the sum over m of |psi(r u)|^2
    is one: the mass of the rotation-covariant modulus of the wavelet over the whole space is one, whatever sigma and l. *)
Theorem C93_unit_mass : forall sph sigma l u1 u2 u3, 0 < sigma -> (l <> 0%nat -> addition_theorem sph l) -> pow u1 2 + pow u2 2 + pow u3 2 = 1 ->
  is_lim (fun R => RInt (fun r => 4 * PI * pow r 2 * sqrt (energy (fun m => solid_harmonic_point sph false sigma l m (r * u1) (r * u2) (r * u3)) l)) 0 R) p_infty 1.
Proof.
  intros sph sigma l u1 u2 u3 Hs Hsph Hu.
  set (K := 4 * PI * (norm_at_degree l * sqrt ((2 * INR l + 1) / (4 * PI)))).
  assert (HK : K * moment (l + 2) = 1) by (unfold K; eapply eq_trans; [|apply (norm_mass l)]; ring).
  apply is_lim_ext_loc with (f := fun R => K * RInt (gk (l + 2)) 0 (/ sigma * R)).
  - exists 0. intros R HR. pose proof (int_lin (gk (l + 2)) (/ sigma) 0 R (gk_cont _)) as E. rewrite Rmult_0_r in E. rewrite <- E. rewrite <- int_scal.
    + apply RInt_ext. intros r [Hr _]. rewrite Rmin_left in Hr by lra. eqR.
      rewrite energy_point by assumption. cbv zeta.
      replace (sqrt (pow (r * u1) 2 + pow (r * u2) 2 + pow (r * u3) 2)) with r.
      * replace (r / sigma) with (/ sigma * r) by (unfold Rdiv; ring). unfold gk, K. rewrite pow_add. set (z := / sigma * r). replace (pow r 2) with (pow (sigma * z) 2) by (unfold z; f_equal; field; lra). field. lra.
      * replace (pow (r * u1) 2 + pow (r * u2) 2 + pow (r * u3) 2) with (pow r 2 * (pow u1 2 + pow u2 2 + pow u3 2)) by ring. rewrite Hu, Rmult_1_r. symmetry. apply sqrt_pow2. lra.
    + apply integrable. intros z. apply smooth. unfold gk. auto_derive. exact I.
  - replace (Finite 1) with (Finite (K * moment (l + 2))) by (now rewrite HK). apply (is_lim_scal_l (fun R => RInt (gk (l + 2)) 0 (/ sigma * R)) K p_infty (moment (l + 2))).
    apply is_lim_comp with (f := fun t => RInt (gk (l + 2)) 0 t) (l := p_infty); [apply moment_lim| |exists 0; intros; discriminate].
    assert (0 < / sigma) by now apply Rinv_0_lt_compat.
    pose proof (is_lim_scal_l (fun R => R) (/ sigma) p_infty p_infty (is_lim_id _)) as H1.
    replace (Rbar_mult (/ sigma) p_infty) with p_infty in H1; [exact H1|]. cbn. destruct (Rle_dec 0 (/ sigma)) as [Hle|Hn]; [|exfalso; lra].
    destruct (Rle_lt_or_eq_dec 0 (/ sigma) Hle); [reflexivity|lra].
Qed.
Print Assumptions C93_unit_mass.

(** In the Fourier domain (what the transform uses): the root of the sum over m of |psi^(w)|^2 depends on |w| only; with mu the
    integral of r^(l+2) exp(-r^2/2) over the half-line it is sqrt(pi/2) / mu (sigma |w|)^l exp(-(sigma |w|)^2 / 2). *)
Theorem C93_fourier_energy : forall sph sigma l w1 w2 w3 (mu : R), 0 < sigma -> (l <> 0%nat -> addition_theorem sph l) ->
  is_lim (fun R => RInt (fun r => pow r (l + 2) * exp (- (1 / 2) * pow r 2)) 0 R) p_infty mu ->
  let rho := sigma * sqrt (pow w1 2 + pow w2 2 + pow w3 2) in
  0 < mu /\ sqrt (energy (fun m => solid_harmonic_at sph sigma l m w1 w2 w3) l) = sqrt (PI / 2) / mu * (pow rho l * exp (- (1 / 2) * pow rho 2)).
Proof.
  intros sph sigma l w1 w2 w3 mu Hs Hsph Hmu rho. pose proof PI_RGT_0 as HP.
  assert (E : mu = moment (l + 2)).
  { pose proof (moment_lim (l + 2)) as H. apply is_lim_unique in H. apply is_lim_unique in Hmu. change (Lim (fun R => RInt (gk (l + 2)) 0 R) p_infty = mu) in Hmu. rewrite H in Hmu. now injection Hmu. }
  subst mu. pose proof (norm_mass l) as HM. pose proof (norm_pos l) as Hn. pose proof (pos_INR l) as Hl.
  assert (Hq : 0 < sqrt ((2 * INR l + 1) / (4 * PI))) by (apply sqrt_lt_R0, Rdiv_lt_0_compat; lra).
  set (A := norm_at_degree l) in *. set (B := sqrt ((2 * INR l + 1) / (4 * PI))) in *.
  assert (HAB : 0 < A * (4 * PI * B)) by (apply Rmult_lt_0_compat; [exact Hn|apply Rmult_lt_0_compat; [lra|exact Hq]]).
  assert (Hpos : 0 < moment (l + 2)). { apply (Rmult_lt_reg_l (A * (4 * PI * B))); [exact HAB|]. rewrite Rmult_0_r, HM. lra. }
  split; [exact Hpos|]. unfold solid_harmonic_at. rewrite energy_point by assumption. cbv zeta. fold A B.
  replace (sqrt (pow w1 2 + pow w2 2 + pow w3 2) / (1 / sigma)) with rho by (unfold rho; field; lra).
  replace (A * B) with (/ (4 * PI * moment (l + 2))).
  2:{ apply (Rmult_eq_reg_r (4 * PI * moment (l + 2))); [|apply Rgt_not_eq, Rmult_lt_0_compat; lra]. rewrite Rinv_l by (apply Rgt_not_eq, Rmult_lt_0_compat; lra). eapply eq_trans; [symmetry; exact HM|]. ring. }
  replace (Rpower (2 * PI) (3 / 2)) with (4 * PI * sqrt (PI / 2)).
  - field. lra.
  - replace (3 / 2) with (1 + / 2) by field. rewrite Rpower_plus, Rpower_1, Rpower_sqrt by lra. replace (2 * PI) with (pow 2 2 * (PI / 2)) at 2 by field.
    rewrite sqrt_mult_alt by (cbn; lra). rewrite sqrt_pow2 by lra. ring.
Qed.
Print Assumptions C93_fourier_energy.

(** The Gaussian filters: the arrays are complex, of the size of the volume, one for each scale 0..J+1 (the frontend asks for
    J + 1), and entry (a, b, c) is exp(-(sigma_0 2^j |w|)^2 / 2) at the frequency w = 2 pi k / size, where k is the signed index
    congruent to a for an even size, and to a - 1 for an odd one. *)
Definition signed_index (n a : nat) (k : Z) : Prop :=
  ((exists z, k = Z.of_nat a - Z.of_nat (n mod 2) + z * Z.of_nat n) /\ - Z.of_nat n <= 2 * k + Z.of_nat (n mod 2) < Z.of_nat n)%Z.
Lemma grid_signed n a : (a < n)%nat -> signed_index n a (grid_axis n a).
Proof.
  intros Ha. unfold signed_index, grid_axis. rewrite Nat2Z.inj_mod. change (Z.of_nat 2) with 2%Z.
  assert (H : (0 < Z.of_nat n)%Z) by lia. pose proof (Z.mod_pos_bound (Z.of_nat a + Z.of_nat n / 2) (Z.of_nat n) H) as B.
  pose proof (Z.div_mod (Z.of_nat a + Z.of_nat n / 2) (Z.of_nat n) ltac:(lia)) as E.
  set (m := ((Z.of_nat a + Z.of_nat n / 2) mod Z.of_nat n)%Z) in *. set (q := ((Z.of_nat a + Z.of_nat n / 2) / Z.of_nat n)%Z) in *.
  pose proof (Z.div_mod (Z.of_nat n) 2 ltac:(lia)) as E2. pose proof (Z.mod_pos_bound (Z.of_nat n) 2 ltac:(lia)) as B2.
  pose proof (Z.div_mod (- Z.of_nat n) 2 ltac:(lia)) as E3. pose proof (Z.mod_pos_bound (- Z.of_nat n) 2 ltac:(lia)) as B3.
  split; [exists (- q)%Z; nia|nia].
Qed.
Theorem C93_gaussians : forall sph p s, valid3 p -> new3 sph p = Ok s ->
  List.length (t_gaussian_filters s) = Z.to_nat (h_J p + 2) /\
  forall j w, nth_error (t_gaussian_filters s) j = Some w ->
    nd_dtype w = NdArray.Complex /\ nd_shape w = [Mx p; Nx p; Dx p] /\
    forall a b c k1 k2 k3, (a < Mx p)%nat -> (b < Nx p)%nat -> (c < Dx p)%nat -> signed_index (Mx p) a k1 -> signed_index (Nx p) b k2 -> signed_index (Dx p) c k3 ->
      vox (Nx p) (Dx p) (nd_data w) a b c =
      RtoC (exp (- (pow (h_sigma_0 p * pow 2 j) 2 * (pow (2 * PI * IZR k1 / INR (Mx p)) 2 + pow (2 * PI * IZR k2 / INR (Nx p)) 2 + pow (2 * PI * IZR k3 / INR (Dx p)) 2) / 2))).
Proof.
  intros sph p s Hv Hn. rewrite (new3_ok sph p Hv) in Hn. injection Hn as <-. cbn [t_gaussian_filters]. pose proof (valid3_sizes p Hv) as (_ & _ & _ & HM & HN & HD).
  assert (Hs0 : h_sigma_0 p <> 0) by apply Hv. unfold gaussian_filter_bank. split; [rewrite map_length, zrange_length; f_equal; lia|].
  intros j w H. rewrite nth_error_map in H. destruct (nth_error (zrange 0 (h_J p + 1 + 1)) j) as [zj|] eqn:Ej; [|discriminate]. injection H as <-. cbn [nd_dtype nd_shape nd_data].
  assert (Hj : (j < Z.to_nat (h_J p + 1 + 1 - 0))%nat) by (rewrite <- zrange_length; apply nth_error_Some; congruence).
  apply (nth_error_nth _ _ 0%Z) in Ej. rewrite nth_zrange in Ej by exact Hj. subst zj. rewrite Z.add_0_l, Nat2Z.id.
  split; [reflexivity|]. split; [reflexivity|]. intros a b c k1 k2 k3 Ha Hb Hc K1 K2 K3.
  assert (U : forall n i k, (i < n)%nat -> signed_index n i k -> k = grid_axis n i).
  { intros n i k Hi ((z & Ez) & Bk). destruct (grid_signed n i Hi) as ((z' & Ez') & Bk'). assert (Hm : (0 <= Z.of_nat (n mod 2) < 2)%Z) by (rewrite Nat2Z.inj_mod; apply Z.mod_pos_bound; lia).
    assert (Ed : (exists h, Z.of_nat n = 2 * h + Z.of_nat (n mod 2))%Z) by (exists (Z.of_nat n / 2)%Z; rewrite Nat2Z.inj_mod; apply Z.div_mod; discriminate). destruct Ed as (h & Eh).
    destruct (Z.lt_trichotomy z z') as [L|[L|L]]; [exfalso; nia|now subst z; rewrite Ez, Ez'|exfalso; nia]. }
  unfold vox, gaussian_3d. rewrite nth_vol by assumption. rewrite (U _ _ _ Ha K1), (U _ _ _ Hb K2), (U _ _ _ Hc K3). unfold gaussian_at, freq. f_equal. f_equal.
  assert (Hp : pow 2 j <> 0) by (apply pow_nonzero; lra). assert (INR (Mx p) <> 0) by (apply not_0_INR; lia). assert (INR (Nx p) <> 0) by (apply not_0_INR; lia). assert (INR (Dx p) <> 0) by (apply not_0_INR; lia).
  field. tauto.
Qed.
Print Assumptions C93_gaussians.

(** A family that satisfies the addition theorem at every degree. *)
Example C93_instance : let sph := (fun _ _ _ _ => RtoC (sqrt (/ (4 * PI)))) : Z -> Z -> R -> R -> C in
  (forall l, addition_theorem sph l) /\ pow (2 / 3) 2 + pow (- (2 / 3)) 2 + pow (1 / 3) 2 = 1 /\
  is_lim (fun R => RInt (fun r => 4 * PI * pow r 2 * sqrt (energy (fun m => solid_harmonic_point sph false 3 2 m (r * (2 / 3)) (r * - (2 / 3)) (r * (1 / 3))) 2)) 0 R) p_infty 1 /\
  exists s w, valid3 p_ex /\ new3 sph p_ex = Ok s /\ nth_error (t_gaussian_filters s) 1 = Some w.
Proof.
  pose proof PI_RGT_0 as HP. intros sph. assert (A : forall l, addition_theorem sph l).
  { intros l az po. unfold energy, sph. rewrite Cmod_R, Rabs_right by (apply Rle_ge, sqrt_pos).
    assert (E : pow (sqrt (/ (4 * PI))) 2 = / (4 * PI)) by (apply pow2_sqrt; left; apply Rinv_0_lt_compat; lra). rewrite E.
    replace (2 * INR l + 1) with (INR (2 * l + 1)) by (rewrite plus_INR, mult_INR; cbn [INR]; ring).
    assert (G : forall n b, fold_right Rplus 0 (map (fun _ : nat => / (4 * PI)) (seq b n)) = INR n / (4 * PI)).
    { induction n as [|n IH]; intros b; [cbn; field; lra|]. cbn [seq map fold_right]. rewrite IH, S_INR. field. lra. }
    apply G. }
  split; [exact A|]. split; [cbn [pow]; lra|]. split; [apply C93_unit_mass; [lra|intros _; apply A|cbn [pow]; lra]|].
  eexists _, _. split; [apply p_ex_valid|]. split; [apply new3_ok, p_ex_valid|]. reflexivity.
Qed.
