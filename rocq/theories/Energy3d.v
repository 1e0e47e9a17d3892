(** Parseval's identity for volumes, the energy of the wavelet moduli of the 3-D transform, and the Cauchy-Schwarz inequality. *)
From Coq Require Import String Reals ZArith List Bool Arith Lia Lra Psatz.
From Coquelicot Require Import Complex.
From Verif Require Import Base BaseProofs NdArray NdProofs StackProofs Backend Backend2d Images ComplexOps Dft Conv1d Dft2 Mats FilterBank1d
  Backend3d Core3d FilterBank3d Frontend3d Dft3 Rows3d Eval3d Path3d Construct1d Invariance1d Norm1d Energy1d Shift1d Shift2d PropScat3d PropValues3d PropStability3d.
Import ListNotations.
Local Open Scope R_scope.

Definition rsum3 (M N D : nat) (f : nat -> nat -> nat -> R) : R := rsum M (fun a => rsum N (fun b => rsum D (fun c => f a b c))).
Lemma rsum3_ext M N D f g : (forall a b c, (a < M)%nat -> (b < N)%nat -> (c < D)%nat -> f a b c = g a b c) -> rsum3 M N D f = rsum3 M N D g.
Proof. intros H. apply rsum_ext. intros a Ha. apply rsum_ext. intros b Hb. apply rsum_ext. intros c Hc. now apply H. Qed.
Lemma rsum3_le M N D f g : (forall a b c, (a < M)%nat -> (b < N)%nat -> (c < D)%nat -> f a b c <= g a b c) -> rsum3 M N D f <= rsum3 M N D g.
Proof. intros H. apply rsum_le. intros a Ha. apply rsum_le. intros b Hb. apply rsum_le. intros c Hc. now apply H. Qed.
Lemma rsum3_pos M N D f : (forall a b c, 0 <= f a b c) -> 0 <= rsum3 M N D f.
Proof. intros H. apply rsum_pos. intros a _. apply rsum_pos. intros b _. apply rsum_pos. intros c _. apply H. Qed.
Lemma rsum3_scal M N D k f : rsum3 M N D (fun a b c => k * f a b c) = k * rsum3 M N D f.
Proof. unfold rsum3. rewrite <- rsum_scal. apply rsum_ext. intros a _. rewrite <- rsum_scal. apply rsum_ext. intros b _. apply rsum_scal. Qed.
Lemma rsum_add n f g : rsum n (fun i => f i + g i) = rsum n f + rsum n g.
Proof. induction n as [|n IH]; cbn [rsum]; [ring|]. rewrite IH. ring. Qed.
Lemma rsum3_add M N D f g : rsum3 M N D (fun a b c => f a b c + g a b c) = rsum3 M N D f + rsum3 M N D g.
Proof. unfold rsum3. rewrite <- rsum_add. apply rsum_ext. intros a _. rewrite <- rsum_add. apply rsum_ext. intros b _. apply rsum_add. Qed.
Lemma csum3_rsum M N D f : csum3 M N D (fun a b c => RtoC (f a b c)) = RtoC (rsum3 M N D f).
Proof. unfold csum3, rsum3. rewrite <- rsum_csum. apply csum_ext. intros a _. rewrite <- rsum_csum. apply csum_ext. intros b _. apply rsum_csum. Qed.
Lemma rsum3_front M N D f : rsum3 M N D f = rsum N (fun b => rsum D (fun c => rsum M (fun a => f a b c))).
Proof. unfold rsum3. rewrite rsum_swap. apply rsum_ext. intros b _. apply rsum_swap. Qed.

Lemma sq_abs x : Rabs x ^ 2 = x ^ 2.
Proof. rewrite RPow_abs. apply Rabs_pos_eq, pow2_ge_0. Qed.

(** ** The Cauchy-Schwarz inequality *)
Lemma cauchy_step x y F G : 0 <= x -> 0 <= y -> 0 <= F -> 0 <= G -> sqrt F * sqrt G + x * y <= sqrt (F + x ^ 2) * sqrt (G + y ^ 2).
Proof.
  intros Hx Hy HF HG. rewrite <- (sqrt_mult (F + x ^ 2)) by nra. pose proof (sqrt_pos F). pose proof (sqrt_pos G).
  rewrite <- (sqrt_pow2 (sqrt F * sqrt G + x * y)) by nra. apply sqrt_le_1_alt.
  pose proof (pow2_sqrt F HF) as E1. pose proof (pow2_sqrt G HG) as E2. pose proof (pow2_ge_0 (sqrt F * y - sqrt G * x)).
  replace F with (sqrt F ^ 2) at 2 by exact E1. replace G with (sqrt G ^ 2) at 2 by exact E2. nra.
Qed.
Lemma rsum_sq_pos n f : 0 <= rsum n (fun i => f i ^ 2).
Proof. apply rsum_pos. intros i _. apply pow2_ge_0. Qed.
Lemma cauchy n f g : (forall i, 0 <= f i) -> (forall i, 0 <= g i) -> rsum n (fun i => f i * g i) <= sqrt (rsum n (fun i => f i ^ 2)) * sqrt (rsum n (fun i => g i ^ 2)).
Proof.
  intros Hf Hg. induction n as [|n IH]; cbn [rsum]; [rewrite sqrt_0; lra|].
  pose proof (cauchy_step (f n) (g n) _ _ (Hf n) (Hg n) (rsum_sq_pos n f) (rsum_sq_pos n g)). lra.
Qed.
Lemma cauchy3 M N D f g : (forall a b c, 0 <= f a b c) -> (forall a b c, 0 <= g a b c) ->
  rsum3 M N D (fun a b c => f a b c * g a b c) <= sqrt (rsum3 M N D (fun a b c => f a b c ^ 2)) * sqrt (rsum3 M N D (fun a b c => g a b c ^ 2)).
Proof.
  intros Hf Hg. unfold rsum3.
  assert (P : forall h : nat -> nat -> R, 0 <= rsum N (fun b => rsum D (fun c => h b c ^ 2))) by (intros h; apply rsum_pos; intros b _; apply rsum_sq_pos).
  eapply Rle_trans.
  { apply (rsum_le M _ (fun a => sqrt (rsum N (fun b => rsum D (fun c => f a b c ^ 2))) * sqrt (rsum N (fun b => rsum D (fun c => g a b c ^ 2))))). intros a _.
    eapply Rle_trans.
    { apply (rsum_le N _ (fun b => sqrt (rsum D (fun c => f a b c ^ 2)) * sqrt (rsum D (fun c => g a b c ^ 2)))). intros b _. apply cauchy; intros; auto. }
    eapply Rle_trans; [apply cauchy; intros; apply sqrt_pos|]. right. f_equal; f_equal; apply rsum_ext; intros b _; apply pow2_sqrt, rsum_sq_pos. }
  eapply Rle_trans; [apply cauchy; intros; apply sqrt_pos|]. right. f_equal; f_equal; apply rsum_ext; intros a _; apply pow2_sqrt, P.
Qed.

(** ** Parseval's identity for volumes *)
Lemma parseval3 M N D (X : nat -> nat -> nat -> C) : (0 < M)%nat -> (0 < N)%nat -> (0 < D)%nat ->
  rsum3 M N D (fun u v w => Cmod (idft3_at M N D X (Z.of_nat u) (Z.of_nat v) (Z.of_nat w)) ^ 2) = rsum3 M N D (fun a b c => Cmod (X a b c) ^ 2) / (INR M * (INR N * INR D)).
Proof.
  intros HM HN HD. pose proof (INR_N M HM). pose proof (INR_N N HN). pose proof (INR_N D HD). rewrite rsum3_front.
  rewrite (rsum_ext N _ (fun v => rsum D (fun w => rsum M (fun a => Cmod (idft2_at N D (X a) (Z.of_nat v) (Z.of_nat w)) ^ 2)) / INR M)).
  2:{ intros v _. rewrite <- rsum_div. apply rsum_ext. intros w _. exact (parseval M (fun a => idft2_at N D (X a) (Z.of_nat v) (Z.of_nat w)) HM). }
  rewrite rsum_div, <- (rsum3_front M N D (fun a v w => Cmod (idft2_at N D (X a) (Z.of_nat v) (Z.of_nat w)) ^ 2)). unfold rsum3.
  rewrite (rsum_ext M _ (fun a => rsum N (fun b => rsum D (fun c => Cmod (X a b c) ^ 2)) / (INR N * INR D))) by (intros a _; now apply parseval2).
  rewrite rsum_div. field. lra.
Qed.
Lemma energy_dft2 M N (x : nat -> nat -> C) : (0 < M)%nat -> (0 < N)%nat ->
  rsum M (fun a => rsum N (fun b => Cmod (dft2_at M N x (Z.of_nat a) (Z.of_nat b)) ^ 2)) = INR M * INR N * rsum M (fun a => rsum N (fun b => Cmod (x a b) ^ 2)).
Proof.
  intros HM HN. rewrite rsum_swap. rewrite (rsum_ext N _ (fun b => INR M * rsum M (fun a => Cmod (dft_at N (x a) (Z.of_nat b)) ^ 2))).
  2:{ intros b _. exact (energy_dft M (fun a => dft_at N (x a) (Z.of_nat b)) HM). }
  rewrite rsum_scal, rsum_swap, (rsum_ext M _ (fun a => INR N * rsum N (fun b => Cmod (x a b) ^ 2))); [rewrite rsum_scal; ring|].
  intros a _. now apply energy_dft.
Qed.
Lemma energy_dft3 M N D (x : nat -> nat -> nat -> C) : (0 < M)%nat -> (0 < N)%nat -> (0 < D)%nat ->
  rsum3 M N D (fun a b c => Cmod (dft3_at M N D x (Z.of_nat a) (Z.of_nat b) (Z.of_nat c)) ^ 2) = INR M * (INR N * INR D) * rsum3 M N D (fun a b c => Cmod (x a b c) ^ 2).
Proof.
  intros HM HN HD. rewrite rsum3_front.
  rewrite (rsum_ext N _ (fun v => INR M * rsum D (fun w => rsum M (fun a => Cmod (dft2_at N D (x a) (Z.of_nat v) (Z.of_nat w)) ^ 2)))).
  2:{ intros v _. rewrite <- rsum_scal. apply rsum_ext. intros w _. exact (energy_dft M (fun a => dft2_at N D (x a) (Z.of_nat v) (Z.of_nat w)) HM). }
  rewrite rsum_scal, <- (rsum3_front M N D (fun a v w => Cmod (dft2_at N D (x a) (Z.of_nat v) (Z.of_nat w)) ^ 2)). unfold rsum3.
  rewrite (rsum_ext M _ (fun a => INR N * INR D * rsum N (fun b => rsum D (fun c => Cmod (x a b c) ^ 2)))) by (intros a _; now apply energy_dft2).
  rewrite rsum_scal. ring.
Qed.
(** The energy of a filtered volume. *)
Lemma filtered_energy M N D v w : (0 < M)%nat -> (0 < N)%nat -> (0 < D)%nat ->
  rsum3 M N D (fun a b c => Cmod (conv3 M N D v (idft3 M N D w) (Z.of_nat a) (Z.of_nat b) (Z.of_nat c)) ^ 2) =
  rsum3 M N D (fun a b c => Cmod (dft3_at M N D (vox N D v) (Z.of_nat a) (Z.of_nat b) (Z.of_nat c)) ^ 2 * Cmod (vox N D w a b c) ^ 2) / (INR M * (INR N * INR D)).
Proof.
  intros HM HN HD. set (X := fun a b c => (dft3_at M N D (vox N D v) (Z.of_nat a) (Z.of_nat b) (Z.of_nat c) * vox N D w a b c)%C).
  rewrite (rsum3_ext M N D _ (fun u v w => Cmod (idft3_at M N D X (Z.of_nat u) (Z.of_nat v) (Z.of_nat w)) ^ 2)).
  - rewrite parseval3 by assumption. f_equal. apply rsum3_ext. intros a b c _ _ _. unfold X. now rewrite Cmod_mult, Rpow_mult_distr.
  - intros a b c Ha Hb Hc. do 2 f_equal. unfold X. rewrite idft3_product by assumption. apply csum3_ext. intros a' b' c' _ _ _. f_equal. now apply vox_idft3_wrap.
Qed.

(** ** The wavelet moduli *)
Section Moduli.
Variables (sph : Z -> Z -> R -> R -> C) (p : params3).
Notation M := (Mx p). Notation N := (Nx p). Notation D := (Dx p).
Hypothesis (HM : (0 < M)%nat) (HN : (0 < N)%nat) (HD : (0 < D)%nat).
(** |psi|^2 at a frequency, summed over the orders -l..l, or for the order -l alone. *)
Definition weight3 (l j a b c : nat) : R :=
  let at_order m := Cmod (solid_harmonic_at sph (h_sigma_0 p * 2 ^ j) l m (freq M a) (freq N b) (freq D c)) ^ 2 in
  if h_rotation_covariant p then fold_right Rplus 0 (map (fun i => at_order (Z.of_nat i - Z.of_nat l)%Z) (seq 0 (2 * l + 1))) else at_order (- Z.of_nat l)%Z.
(** |x|^2 at a frequency. *)
Definition spectrum3 (v : list C) (a b c : nat) : R := Cmod (dft3_at M N D (vox N D v) (Z.of_nat a) (Z.of_nat b) (Z.of_nat c)) ^ 2.
Definition energy3 (v : list C) : R := rsum3 M N D (fun a b c => Cmod (vox N D v a b c) ^ 2).
Lemma amp3_energy l j m v : rsum3 M N D (fun a b c => amp3 sph p l j m v a b c ^ 2) =
  rsum3 M N D (fun a b c => spectrum3 v a b c * Cmod (solid_harmonic_at sph (h_sigma_0 p * 2 ^ j) l m (freq M a) (freq N b) (freq D c)) ^ 2) / (INR M * (INR N * INR D)).
Proof.
  unfold amp3, psi3. rewrite filtered_energy by assumption. f_equal. apply rsum3_ext. intros a b c Ha Hb Hc. unfold spectrum3. now rewrite vox_vol.
Qed.
Lemma u_of_energy l j v : rsum3 M N D (fun a b c => u_of sph p l j v a b c ^ 2) = rsum3 M N D (fun a b c => spectrum3 v a b c * weight3 l j a b c) / (INR M * (INR N * INR D)).
Proof.
  unfold weight3, u_of. destruct (h_rotation_covariant p); [|apply amp3_energy].
  rewrite (rsum3_ext M N D _ (fun a b c => fold_right Rplus 0 (map (fun i => amp3 sph p l j (Z.of_nat i - Z.of_nat l) v a b c ^ 2) (seq 0 (2 * l + 1))))).
  2:{ intros a b c _ _ _. apply pow2_sqrt. rewrite <- (map_map (fun i => amp3 sph p l j (Z.of_nat i - Z.of_nat l) v a b c) (fun x => x ^ 2)). apply squares_nonneg. }
  pose proof (INR_N M HM). pose proof (INR_N N HN). pose proof (INR_N D HD).
  induction (seq 0 (2 * l + 1)) as [|i L IH].
  - cbn [map fold_right]. rewrite (rsum3_ext M N D (fun a b c => spectrum3 v a b c * 0) (fun _ _ _ => 0 * 0)) by (intros; ring).
    rewrite (rsum3_ext M N D (fun _ _ _ => 0) (fun _ _ _ => 0 * 0)) by (intros; ring). rewrite rsum3_scal. field. lra.
  - cbn [map fold_right]. rewrite rsum3_add, IH, amp3_energy. unfold Rdiv. rewrite <- Rmult_plus_distr_r, <- rsum3_add. f_equal. apply rsum3_ext. intros. ring.
Qed.
Lemma energy3_spectrum v : rsum3 M N D (spectrum3 v) = INR M * (INR N * INR D) * energy3 v.
Proof. unfold spectrum3, energy3. now apply energy_dft3. Qed.
Lemma u_of_energy_le l j G v : (forall a b c, (a < M)%nat -> (b < N)%nat -> (c < D)%nat -> weight3 l j a b c <= G) ->
  rsum3 M N D (fun a b c => u_of sph p l j v a b c ^ 2) <= G * energy3 v.
Proof.
  intros HG. pose proof (INR_N M HM). pose proof (INR_N N HN). pose proof (INR_N D HD). rewrite u_of_energy. apply Rcomplements.Rle_div_l; [repeat apply Rmult_lt_0_compat; assumption|].
  replace (G * energy3 v * (INR M * (INR N * INR D))) with (G * (INR M * (INR N * INR D) * energy3 v)) by ring. rewrite <- energy3_spectrum, <- rsum3_scal.
  apply rsum3_le. intros a b c Ha Hb Hc. rewrite Rmult_comm. apply Rmult_le_compat_r; [apply pow2_ge_0|now apply HG].
Qed.
(** The difference of two volumes. *)
Definition minus3 (x y : list C) : list C := vol M N D (fun a b c => vox N D x a b c - vox N D y a b c)%C.
Lemma conv3_minus x y h u v w : conv3 M N D (minus3 x y) h u v w = (conv3 M N D x h u v w - conv3 M N D y h u v w)%C.
Proof. unfold conv3. rewrite csum3_sub. apply csum3_ext. intros a b c Ha Hb Hc. unfold minus3. rewrite vox_vol by assumption. ring. Qed.
Lemma amp3_minus l j m x y a b c : amp3 sph p l j m x a b c <= amp3 sph p l j m y a b c + 1 * amp3 sph p l j m (minus3 x y) a b c.
Proof.
  unfold amp3. rewrite conv3_minus. set (P := conv3 M N D x _ _ _ _). set (Q := conv3 M N D y _ _ _ _). pose proof (Cmod_triangle Q (P - Q)%C) as T.
  replace (Q + (P - Q))%C with P in T by ring. lra.
Qed.
Lemma u_of_minus_le l j x y a b c : u_of sph p l j x a b c <= u_of sph p l j y a b c + u_of sph p l j (minus3 x y) a b c.
Proof.
  rewrite !u_of_norm. destruct (h_rotation_covariant p); [|pose proof (amp3_minus l j (- Z.of_nat l) x y a b c); lra].
  rewrite <- (Rmult_1_l (norm_of (map (fun i => amp3 sph p l j (Z.of_nat i - Z.of_nat l) (minus3 x y) a b c) _))).
  apply (norm_of_le (fun i => amp3 sph p l j (Z.of_nat i - Z.of_nat l) x a b c) (fun i => amp3 sph p l j (Z.of_nat i - Z.of_nat l) y a b c)
    (fun i => amp3 sph p l j (Z.of_nat i - Z.of_nat l) (minus3 x y) a b c)); [lra|]. intros i. repeat split; try apply Cmod_ge_0. apply amp3_minus.
Qed.
Lemma amp3_minus_sym l j m x y a b c : amp3 sph p l j m (minus3 x y) a b c = amp3 sph p l j m (minus3 y x) a b c.
Proof. unfold amp3. rewrite !conv3_minus. set (P := conv3 M N D x _ _ _ _). set (Q := conv3 M N D y _ _ _ _). rewrite <- Cmod_opp. f_equal. ring. Qed.
Lemma u_of_minus_sym l j x y a b c : u_of sph p l j (minus3 x y) a b c = u_of sph p l j (minus3 y x) a b c.
Proof.
  unfold u_of. destruct (h_rotation_covariant p); [|apply amp3_minus_sym]. do 2 f_equal. apply map_ext. intros i. now rewrite amp3_minus_sym.
Qed.
Lemma u_of_minus l j x y a b c : Rabs (u_of sph p l j x a b c - u_of sph p l j y a b c) <= u_of sph p l j (minus3 x y) a b c.
Proof.
  pose proof (u_of_minus_le l j x y a b c). pose proof (u_of_minus_le l j y x a b c) as H'. rewrite u_of_minus_sym in H'. apply Rabs_le. lra.
Qed.
(** The wavelet modulus, in mean square. *)
Definition dist3 (x y : list C) : R := energy3 (minus3 x y).
Notation again l j v := (vol M N D (fun a b c => RtoC (u_of sph p l j v a b c))).
Lemma dist3_again l j x y : dist3 (again l j x) (again l j y) = rsum3 M N D (fun a b c => (u_of sph p l j x a b c - u_of sph p l j y a b c) ^ 2).
Proof. unfold dist3, energy3, minus3. apply rsum3_ext. intros a b c Ha Hb Hc. rewrite !vox_vol by assumption. rewrite <- RtoC_minus, Cmod_R. apply sq_abs. Qed.
Lemma energy3_again l j x : energy3 (again l j x) = rsum3 M N D (fun a b c => u_of sph p l j x a b c ^ 2).
Proof. unfold energy3. apply rsum3_ext. intros a b c Ha Hb Hc. rewrite vox_vol by assumption. rewrite Cmod_R. apply sq_abs. Qed.
Lemma again_dist l j G x y : (forall a b c, (a < M)%nat -> (b < N)%nat -> (c < D)%nat -> weight3 l j a b c <= G) -> dist3 (again l j x) (again l j y) <= G * dist3 x y.
Proof.
  intros HG. rewrite dist3_again. eapply Rle_trans; [|apply (u_of_energy_le l j G (minus3 x y) HG)]. apply rsum3_le. intros a b c _ _ _.
  rewrite <- sq_abs. apply pow_incr. split; [apply Rabs_pos|apply u_of_minus].
Qed.
Lemma dist3_pos x y : 0 <= dist3 x y.
Proof. apply rsum3_pos. intros. apply pow2_ge_0. Qed.
Lemma energy3_pos x : 0 <= energy3 x.
Proof. apply rsum3_pos. intros. apply pow2_ge_0. Qed.
(** ** The moments *)
Lemma rpow_1' x : 0 <= x -> rpow x 1 = x.
Proof. intros [H| <-]; [rewrite rpow_pos, Rpower_1 by exact H; reflexivity|apply rpow_0; lra]. Qed.
Lemma rpow_2' x : 0 <= x -> rpow x 2 = x ^ 2.
Proof. intros [H| <-]; [rewrite rpow_pos by exact H; now rewrite <- (Rpower_pow 2) by exact H|rewrite rpow_0 by lra; ring]. Qed.
Lemma moment_1 l j v : moment3 p 1 (u_of sph p l j v) = RtoC (rsum3 M N D (u_of sph p l j v)).
Proof. unfold moment3. rewrite <- csum3_rsum. apply csum3_ext. intros. now rewrite rpow_1' by apply u_of_nonneg. Qed.
Lemma moment_2 l j v : moment3 p 2 (u_of sph p l j v) = RtoC (rsum3 M N D (fun a b c => u_of sph p l j v a b c ^ 2)).
Proof. unfold moment3. rewrite <- csum3_rsum. apply csum3_ext. intros. now rewrite rpow_2' by apply u_of_nonneg. Qed.
Lemma rsum3_minus f g : rsum3 M N D f - rsum3 M N D g = rsum3 M N D (fun a b c => f a b c - g a b c).
Proof.
  replace (rsum3 M N D f - rsum3 M N D g) with (rsum3 M N D f + -1 * rsum3 M N D g) by ring. rewrite <- rsum3_scal, <- rsum3_add. apply rsum3_ext. intros. ring.
Qed.
Lemma rsum3_abs f : Rabs (rsum3 M N D f) <= rsum3 M N D (fun a b c => Rabs (f a b c)).
Proof.
  apply Rabs_le. split; [|apply rsum3_le; intros; apply Rle_abs]. replace (- rsum3 M N D (fun a b c => Rabs (f a b c))) with (rsum3 M N D (fun a b c => -1 * Rabs (f a b c))) by (rewrite rsum3_scal; ring).
  apply rsum3_le. intros a b c _ _ _. pose proof (Rle_abs (- f a b c)) as H. rewrite Rabs_Ropp in H. lra.
Qed.
Lemma moment_1_close l j G x y : (forall a b c, (a < M)%nat -> (b < N)%nat -> (c < D)%nat -> weight3 l j a b c <= G) ->
  Cmod (moment3 p 1 (u_of sph p l j x) - moment3 p 1 (u_of sph p l j y))%C <= sqrt (INR (M * (N * D))) * sqrt (G * dist3 x y).
Proof.
  intros HG. rewrite !moment_1, <- RtoC_minus, Cmod_R, rsum3_minus. eapply Rle_trans; [apply rsum3_abs|].
  eapply Rle_trans; [apply (rsum3_le M N D _ (fun a b c => 1 * Rabs (u_of sph p l j x a b c - u_of sph p l j y a b c))); intros; lra|].
  eapply Rle_trans; [apply cauchy3; intros; [lra|apply Rabs_pos]|]. apply Rmult_le_compat; try apply sqrt_pos.
  - right. f_equal. unfold rsum3. rewrite (rsum_ext M _ (fun _ => INR N * INR D)); [rewrite rsum_const, !mult_INR; ring|]. intros a _.
    rewrite (rsum_ext N _ (fun _ => INR D)); [apply rsum_const|]. intros b _. rewrite (rsum_ext D _ (fun _ => 1)) by (intros; ring). rewrite rsum_const. ring.
  - apply sqrt_le_1_alt. eapply Rle_trans; [|apply (again_dist l j G x y HG)]. rewrite dist3_again. right. apply rsum3_ext. intros. apply sq_abs.
Qed.
Lemma moment_2_close l j G x y : (forall a b c, (a < M)%nat -> (b < N)%nat -> (c < D)%nat -> weight3 l j a b c <= G) ->
  Cmod (moment3 p 2 (u_of sph p l j x) - moment3 p 2 (u_of sph p l j y))%C <= sqrt (G * dist3 x y) * (sqrt (G * energy3 x) + sqrt (G * energy3 y)).
Proof.
  intros HG. rewrite !moment_2, <- RtoC_minus, Cmod_R, rsum3_minus. eapply Rle_trans; [apply rsum3_abs|].
  set (d := fun a b c => Rabs (u_of sph p l j x a b c - u_of sph p l j y a b c)).
  rewrite (rsum3_ext M N D _ (fun a b c => d a b c * u_of sph p l j x a b c + d a b c * u_of sph p l j y a b c)).
  2:{ intros a b c _ _ _. unfold d. pose proof (u_of_nonneg sph p l j x a b c). pose proof (u_of_nonneg sph p l j y a b c).
      rewrite <- Rmult_plus_distr_l, <- (Rabs_pos_eq (_ + _)) by lra. rewrite <- Rabs_mult. f_equal. ring. }
  rewrite rsum3_add, Rmult_plus_distr_l.
  assert (Ed : sqrt (rsum3 M N D (fun a b c => d a b c ^ 2)) <= sqrt (G * dist3 x y)).
  { apply sqrt_le_1_alt. eapply Rle_trans; [|apply (again_dist l j G x y HG)]. rewrite dist3_again. right. apply rsum3_ext. intros. unfold d. apply sq_abs. }
  assert (C : forall v, rsum3 M N D (fun a b c => d a b c * u_of sph p l j v a b c) <= sqrt (G * dist3 x y) * sqrt (G * energy3 v)).
  { intros v. eapply Rle_trans; [apply cauchy3; intros; [apply Rabs_pos|apply u_of_nonneg]|]. apply Rmult_le_compat; try apply sqrt_pos; [exact Ed|].
    apply sqrt_le_1_alt. now apply u_of_energy_le. }
  apply Rplus_le_compat; apply C.
Qed.
End Moduli.
