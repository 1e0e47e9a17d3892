(** How far the low-pass filter of the 1-D transform lets a translation of its input through: Parseval's identity, and a
    bound on the periodised Gaussian times the distance of a root of unity to 1. *)
From Coq Require Import String Reals ZArith QArith Qreals List Bool Lia Lra Psatz.
From Coquelicot Require Import Complex.
From Verif Require Import Base BaseProofs NdArray Backend Core1d Utils1d Utils1dProofs Frontend1d Spec1d Core1dProofs
  Frontend1dProofs NdProofs Rows1d FrontRows Factory1d FactoryProofs ComplexOps FilterBank1d FilterBank1dProofs Construct1d
  Shape1d PropFilters1d PropShapes1d Dft Conv1d Value1d Tabulated1d PropNumerics1d Invariance1d Norm1d Stability1d Energy1d.
Import ListNotations.
Local Open Scope R_scope.

(** ** Parseval's identity *)
Lemma Cmod2_conj (z : C) : RtoC (Cmod z ^ 2) = (z * Cconj z)%C.
Proof.
  unfold Cmod. rewrite pow2_sqrt by (destruct z; cbn [fst snd]; nra). destruct z as [a b]. apply C_ext; cbn; ring.
Qed.
Lemma conj_mult (a b : C) : Cconj (a * b)%C = (Cconj a * Cconj b)%C.
Proof. destruct a, b. apply C_ext; cbn; ring. Qed.
Lemma csum_sub n (f g : nat -> C) : (csum n f + - csum n g)%C = csum n (fun i => f i + - g i)%C.
Proof. induction n as [|n IH]; cbn [csum]; [ring|]. rewrite <- IH. ring. Qed.
Lemma csum_single_eq n (f : nat -> C) k : (k < n)%nat -> csum n (fun l => if Nat.eqb l k then f l else RtoC 0) = f k.
Proof.
  intros Hk. rewrite (csum_single n _ k Hk).
  - now rewrite Nat.eqb_refl.
  - intros j _ Hj. destruct (Nat.eqb_spec j k); [contradiction|reflexivity].
Qed.
Lemma parseval N (X : nat -> C) : (0 < N)%nat ->
  rsum N (fun n => Cmod (idft_at N X (Z.of_nat n)) ^ 2) = rsum N (fun k => Cmod (X k) ^ 2) / INR N.
Proof.
  intros HN. pose proof (INR_N_C N HN) as HC. pose proof (INR_N N HN) as HR. apply RtoC_inj.
  rewrite <- rsum_csum. unfold Rdiv. rewrite RtoC_mult, <- rsum_csum, RtoC_inv by lra.
  rewrite (csum_ext N (fun n => RtoC (Cmod (idft_at N X (Z.of_nat n)) ^ 2))
    (fun n => csum N (fun k => csum N (fun l => X k * Cconj (X l) * root N (Z.of_nat n * (Z.of_nat k - Z.of_nat l)))) * (/ RtoC (INR N) * / RtoC (INR N)))%C).
  2:{ intros n Hn. rewrite Cmod2_conj. unfold idft_at.
      assert (E : Cconj (csum N (fun k => X k * root N (Z.of_nat k * Z.of_nat n)) / RtoC (INR N))%C =
        (csum N (fun l => Cconj (X l) * root N (- (Z.of_nat l * Z.of_nat n))) / RtoC (INR N))%C).
      { unfold Cdiv. rewrite <- RtoC_inv by lra. rewrite conj_mult, csum_conj.
        replace (Cconj (RtoC (/ INR N))) with (RtoC (/ INR N)) by (apply C_ext; cbn; ring).
        f_equal. apply csum_ext. intros l _. rewrite conj_mult, root_opp by exact HN. reflexivity. }
      rewrite E. unfold Cdiv.
      replace (csum N (fun k => X k * root N (Z.of_nat k * Z.of_nat n)) * / RtoC (INR N) * (csum N (fun l => Cconj (X l) * root N (- (Z.of_nat l * Z.of_nat n))) * / RtoC (INR N)))%C
        with (csum N (fun k => X k * root N (Z.of_nat k * Z.of_nat n)) * csum N (fun l => Cconj (X l) * root N (- (Z.of_nat l * Z.of_nat n))) * (/ RtoC (INR N) * / RtoC (INR N)))%C by ring.
      f_equal. rewrite <- csum_scal_r. apply csum_ext. intros k _. rewrite <- csum_scal. apply csum_ext. intros l _.
      replace (Z.of_nat n * (Z.of_nat k - Z.of_nat l))%Z with (Z.of_nat k * Z.of_nat n + - (Z.of_nat l * Z.of_nat n))%Z by lia.
      rewrite root_add by exact HN. ring. }
  rewrite csum_scal_r, csum_swap.
  rewrite (csum_ext N _ (fun k => RtoC (Cmod (X k) ^ 2) * RtoC (INR N))%C).
  - rewrite csum_scal_r. field. exact HC.
  - intros k Hk. rewrite csum_swap.
    rewrite (csum_ext N _ (fun l => if Nat.eqb l k then (X k * Cconj (X l) * RtoC (INR N))%C else RtoC 0)).
    + rewrite (csum_single_eq N (fun l => (X k * Cconj (X l) * RtoC (INR N))%C) k Hk). now rewrite Cmod2_conj.
    + intros l Hl. rewrite csum_scal, root_sum' by exact HN.
      destruct (Nat.eqb_spec l k) as [->|Hne].
      * rewrite Z.sub_diag, Z.mod_0_l by lia. reflexivity.
      * destruct (Z.eqb_spec ((Z.of_nat k - Z.of_nat l) mod Z.of_nat N) 0) as [E|_]; [|ring].
        exfalso. apply Z.mod_divide in E; [|lia]. destruct E as [q Hq]. assert (q = 0)%Z by nia. lia.
Qed.

(** The energy of a signal. *)
Definition nrg (x : list C) : R := rsum (List.length x) (fun t => Cmod (at_ x t) ^ 2).
Lemma nrg_pos x : 0 <= nrg x.
Proof. apply rsum_pos. intros; apply pow2_ge_0. Qed.
Lemma parseval_dft x : (0 < List.length x)%nat ->
  nrg x = rsum (List.length x) (fun k => Cmod (dft_at (List.length x) (at_ x) (Z.of_nat k)) ^ 2) / INR (List.length x).
Proof.
  intros Hx. rewrite <- (parseval _ (fun k => dft_at (List.length x) (at_ x) (Z.of_nat k)) Hx). apply rsum_ext. intros n Hn.
  now rewrite idft_dft.
Qed.
(** A convolution, as an inverse transform at every instant. *)
Lemma cconv_idft x w n : List.length w = List.length x -> (0 < List.length x)%nat ->
  cconv x (idft w) n = idft_at (List.length x) (fun k => dft_at (List.length x) (at_ x) (Z.of_nat k) * at_ w k)%C n.
Proof.
  intros Hw Hx. rewrite (convolution _ Hx). unfold cconv. apply csum_ext. intros m Hm. f_equal.
  pose proof (Z.mod_pos_bound (n - Z.of_nat m) (Z.of_nat (List.length x)) ltac:(lia)) as B.
  rewrite at_idft by lia. rewrite Z2Nat.id by lia. rewrite Hw. now apply idft_at_mod.
Qed.
(** The change of a filtered signal when its input is shifted. *)
Lemma shift_energy x w d B : List.length w = List.length x -> (0 < List.length x)%nat ->
  (forall k, (k < List.length x)%nat -> Cmod (at_ w k) * Cmod (root (List.length x) (Z.of_nat k * d) - 1)%C <= B) ->
  rsum (List.length x) (fun n => Cmod (cconv (rotate d x) (idft w) (Z.of_nat n) - cconv x (idft w) (Z.of_nat n))%C ^ 2) <= B ^ 2 * nrg x.
Proof.
  intros Hw Hx HB. set (N := List.length x) in *. pose proof (INR_N N Hx) as HR.
  set (X := fun k => dft_at N (at_ x) (Z.of_nat k)).
  rewrite (rsum_ext N _ (fun n => Cmod (idft_at N (fun k => X k * at_ w k * (root N (Z.of_nat k * - d) - 1))%C (Z.of_nat n)) ^ 2)).
  2:{ intros n Hn. do 2 f_equal. rewrite cconv_rotate by exact Hx. rewrite !cconv_idft by assumption. fold N X.
      unfold idft_at, Cdiv, Cminus. 
      match goal with |- (?a * ?c + - (?b * ?c))%C = _ => replace (a * c + - (b * c))%C with ((a + - b) * c)%C by ring end. f_equal.
      rewrite csum_sub. apply csum_ext. intros k _. unfold X.
      replace (Z.of_nat k * (Z.of_nat n - d))%Z with (Z.of_nat k * Z.of_nat n + Z.of_nat k * - d)%Z by lia.
      rewrite root_add by exact Hx. ring. }
  rewrite parseval by exact Hx. rewrite parseval_dft by exact Hx. fold N. unfold Rdiv. rewrite <- Rmult_assoc.
  apply Rmult_le_compat_r; [left; now apply Rinv_0_lt_compat|]. rewrite <- rsum_scal. apply rsum_le. intros k Hk.
  fold (X k). rewrite !Cmod_mult, Rmult_assoc, Rpow_mult_distr, Rmult_comm.
  apply Rmult_le_compat_r; [apply pow2_ge_0|]. apply pow_incr. split; [apply Rmult_le_pos; apply Cmod_ge_0|].
  eapply Rle_trans; [right|apply (HB k Hk)]. f_equal.
  replace (Z.of_nat k * - d)%Z with (- (Z.of_nat k * d))%Z by lia. rewrite root_opp by exact Hx.
  replace (Cconj (root N (Z.of_nat k * d)) - 1)%C with (Cconj (root N (Z.of_nat k * d) - 1)%C) by (apply C_ext; cbn; ring).
  apply Cmod_conj.
Qed.

(** ** Roots of unity near 1 *)
Lemma sin_abs_le x : Rabs (sin x) <= Rabs x.
Proof.
  assert (G : forall y, 0 <= y -> Rabs (sin y) <= y).
  { intros y Hy. destruct (Rle_lt_dec y 1) as [H|H].
    - pose proof PI2_1. assert (0 <= sin y) by (apply sin_ge_0; lra). rewrite Rabs_pos_eq by assumption.
      destruct Hy as [Hy|<-]; [left; now apply sin_lt_x|rewrite sin_0; lra].
    - pose proof (SIN_bound y). apply Rabs_le. lra. }
  destruct (Rle_lt_dec 0 x) as [H|H].
  - rewrite (Rabs_pos_eq x) by exact H. now apply G.
  - rewrite <- (Rabs_Ropp x), <- (Rabs_Ropp (sin x)), <- sin_neg, (Rabs_pos_eq (- x)) by lra. apply G. lra.
Qed.
Lemma cis_minus_1 x : Cmod (cis x - 1)%C <= Rabs x.
Proof.
  assert (E : Cmod (cis x - 1)%C = 2 * Rabs (sin (x / 2))).
  { unfold Cmod, cis. cbn [fst snd Cminus Cplus Copp RtoC].
    replace ((cos x + - (1)) ^ 2 + (sin x + - 0) ^ 2) with (Rsqr (2 * sin (x / 2))).
    - rewrite sqrt_Rsqr_abs, Rabs_mult, (Rabs_pos_eq 2) by lra. reflexivity.
    - pose proof (sin2_cos2 x) as H1. replace x with (2 * (x / 2)) at 2 by field. rewrite cos_2a_sin.
      unfold Rsqr in *. replace x with (2 * (x / 2)) in H1 by field. rewrite cos_2a_sin in H1.
      replace x with (2 * (x / 2)) at 5 by field. nra. }
  rewrite E. pose proof (sin_abs_le (x / 2)) as H. unfold Rdiv in *. rewrite Rabs_mult, (Rabs_pos_eq (/ 2)) in H by lra. lra.
Qed.

(** ** The function u exp (-u^2/2) *)
Definition gd (u : R) : R := u * exp (- (u ^ 2) / 2).
Lemma gd_pos u : 0 <= u -> 0 <= gd u.
Proof. intros H. unfold gd. apply Rmult_le_pos; [exact H|]. left. apply exp_pos. Qed.
Lemma exp_pow_ge y n : 0 <= y -> (1 + y) ^ n <= exp (INR n * y).
Proof.
  intros Hy. induction n as [|n IH]; [cbn [INR pow]; rewrite Rmult_0_l, exp_0; lra|].
  rewrite S_INR. replace ((INR n + 1) * y) with (y + INR n * y) by ring. rewrite exp_plus. cbn [pow].
  apply Rmult_le_compat; [lra|apply pow_le; lra| |exact IH]. apply exp_ineq1_le.
Qed.
Lemma gd_max u : gd u <= 6245 / 10000.
Proof.
  unfold gd. destruct (Rle_lt_dec u 0) as [H|H]; [pose proof (exp_pos (- (u ^ 2) / 2)); nra|].
  assert (H1 : u <= exp (u - 1)) by (pose proof (exp_ineq1_le (u - 1)); lra).
  assert (H2 : exp (u - 1) * exp (- (u ^ 2) / 2) <= exp (- (1) / 2)).
  { rewrite <- exp_plus. apply exp_mono. pose proof (pow2_ge_0 (u - 1)). nra. }
  assert (H3 : exp (- (1) / 2) * exp (INR 4 * (1 / 8)) = 1) by (rewrite <- exp_plus, <- exp_0; apply f_equal; cbn [INR]; field).
  pose proof (exp_pow_ge (1 / 8) 4 ltac:(lra)) as H4. pose proof (exp_pos (- (1) / 2)) as H5.
  pose proof (exp_pos (- (u ^ 2) / 2)) as H6.
  apply Rle_trans with (exp (- (1) / 2)); [|nra].
  eapply Rle_trans; [apply Rmult_le_compat_r; [lra|exact H1]|exact H2].
Qed.
Lemma gd_tail u m : 0 < m <= u -> gd u <= 256 / m ^ 7.
Proof.
  intros [Hm Hu]. assert (U : 0 < u) by lra. unfold gd.
  assert (H1 : u ^ 8 / 256 <= exp (u ^ 2 / 2)).
  { apply Rle_trans with ((1 + u ^ 2 / 16) ^ 8).
    - replace (u ^ 8 / 256) with ((u ^ 2 / 4) ^ 4) by (cbn [pow]; field).
      replace ((1 + u ^ 2 / 16) ^ 8) with (((1 + u ^ 2 / 16) ^ 2) ^ 4) by (cbn [pow]; ring).
      apply pow_incr. split; [pose proof (pow2_ge_0 u); lra|]. pose proof (pow2_ge_0 (1 - u ^ 2 / 16)). nra.
    - eapply Rle_trans; [apply exp_pow_ge; pose proof (pow2_ge_0 u); lra|]. right. apply f_equal. cbn [INR]. field. }
  assert (H2 : exp (- (u ^ 2) / 2) = / exp (u ^ 2 / 2)) by (rewrite <- exp_Ropp; apply f_equal; field). rewrite H2.
  assert (P8 : 0 < u ^ 8) by (apply pow_lt; lra). assert (P7 : 0 < u ^ 7) by (apply pow_lt; lra). assert (M7 : 0 < m ^ 7) by (apply pow_lt; lra).
  apply Rle_trans with (u * / (u ^ 8 / 256)).
  - apply Rmult_le_compat_l; [lra|]. apply Rinv_le_contravar; lra.
  - replace (u * / (u ^ 8 / 256)) with (256 / u ^ 7) by (cbn [pow]; field; lra).
    apply Rmult_le_compat_l; [lra|]. apply Rinv_le_contravar; [exact M7|]. apply pow_incr. lra.
Qed.
(** The sum over one side of a lattice of spacing at least 10. *)
Lemma gd_side a v n : 10 <= a -> 0 <= v -> rsum n (fun i => gd ((v + INR i) * a)) <= gd (v * a) + 2 * (256 / 10 ^ 7).
Proof.
  intros Ha Hv. assert (V0 : 0 <= gd (v * a)) by (apply gd_pos; nra).
  enough (H : forall n, rsum (S n) (fun i => gd ((v + INR i) * a)) <= gd (v * a) + 2 * (256 / 10 ^ 7) * (1 - / INR (S n))).
  { destruct n as [|n]; [cbn [rsum]; nra|]. eapply Rle_trans; [apply H|].
    assert (0 < / INR (S n)) by (apply Rinv_0_lt_compat, lt_0_INR; lia). nra. }
  clear n. induction n as [|n IH].
  - cbn [rsum INR]. rewrite Rinv_1, Rplus_0_r. lra.
  - set (N1 := S n) in *. cbn [rsum]. eapply Rle_trans; [apply Rplus_le_compat_r, IH|]. clear IH.
    assert (H1 : 1 <= INR N1) by (apply (le_INR 1); unfold N1; lia). rewrite S_INR. set (y := INR N1) in *.
    assert (Y7 : y ^ 2 <= y ^ 7).
    { replace (y ^ 7) with (y ^ 2 * y ^ 5) by ring. pose proof (pow_R1_Rle y 5 H1). pose proof (pow2_ge_0 y). nra. }
    pose proof (gd_tail ((v + y) * a) (10 * y) ltac:(split; nra)) as H2.
    rewrite Rpow_mult_distr in H2.
    assert (H3 : 256 / (10 ^ 7 * y ^ 7) <= 2 * (256 / 10 ^ 7) * (/ y - / (y + 1))).
    { replace (256 / (10 ^ 7 * y ^ 7)) with (256 / 10 ^ 7 * / y ^ 7) by (field; lra).
      rewrite Rmult_assoc, (Rmult_comm 2), Rmult_assoc. apply Rmult_le_compat_l; [lra|].
      apply Rle_trans with (/ y ^ 2); [apply Rinv_le_contravar; [apply pow_lt; lra|exact Y7]|].
      replace ((/ y - / (y + 1)) * 2) with (2 / (y * (y + 1))) by (field; lra).
      replace (/ y ^ 2) with (1 / y * / y) by (field; lra).
      replace (2 / (y * (y + 1))) with (1 / y * (2 / (y + 1))) by (field; lra).
      apply Rmult_le_compat_l; [apply Rlt_le, Rdiv_lt_0_compat; lra|].
      apply Rmult_le_reg_r with (y * (y + 1)); [nra|]. field_simplify; lra. }
    lra.
Qed.
(** Both sides, at an offset between 0 and 1. *)
Lemma gd_lattice a v n m : 10 <= a -> 0 <= v <= 1 ->
  rsum n (fun i => gd ((v + INR i) * a)) + rsum m (fun i => gd ((1 - v + INR i) * a)) <= 628 / 1000.
Proof.
  intros Ha Hv. pose proof (gd_side a v n Ha ltac:(lra)) as H1. pose proof (gd_side a (1 - v) m Ha ltac:(lra)) as H2.
  assert (H3 : gd (v * a) + gd ((1 - v) * a) <= 6245 / 10000 + 256 / 5 ^ 7).
  { destruct (Rle_lt_dec v (1 / 2)).
    - pose proof (gd_max (v * a)). pose proof (gd_tail ((1 - v) * a) 5 ltac:(split; nra)). lra.
    - pose proof (gd_max ((1 - v) * a)). pose proof (gd_tail (v * a) 5 ltac:(split; nra)). lra. }
  lra.
Qed.
Lemma PI_318 : PI <= 318 / 100.
Proof.
  pose proof (PI_ineq 14) as [_ H]. unfold tg_alt, PI_tg in H. cbn [Nat.mul Nat.add sum_f_R0] in H.
  rewrite ?INR_IZR_INZ in H. cbn [Z.of_nat Pos.of_succ_nat Pos.succ Nat.mul Nat.add] in H. cbn [pow] in H. lra.
Qed.

(** ** The periodised Gaussian filter *)
Lemma rsum_mul k m f : rsum (k * m) f = rsum k (fun r => rsum m (fun i => f (r * m + i)%nat)).
Proof.
  induction k as [|k IH]; [reflexivity|]. replace (S k * m)%nat with (k * m + m)%nat by lia. rewrite rsum_cat, IH. reflexivity.
Qed.
Section Gaussian.
Variables (N n : nat) (sigma : R).
Hypotheses (HN : (0 < N)%nat) (Hn : (0 < n)%nat) (Hs : 0 < sigma) (Hw : sigma * INR n <= 1 / 10).
Let Np := (n * N)%nat.
Notation K := (n_periods sigma).
Notation G := (G Np sigma 0).
Lemma Np_pos : (0 < Np)%nat. Proof. unfold Np. nia. Qed.

Lemma G00 : 1 <= G 0%nat.
Proof.
  pose proof (P_range N sigma HN Hs) as HP. pose proof (K_range N sigma HN Hs) as HK. unfold Norm1d.G.
  set (P := Z.min (adaptive_choice_P sigma) 5) in *.
  eapply Rle_trans; [|apply (rsum_term K (fun p => exp (- ((fr Np sigma p 0 - 0) ^ 2) / (2 * sigma ^ 2))) (Z.to_nat (P - 1))); [intros; left; apply exp_pos|unfold n_periods; fold P; lia]].
  right. rewrite <- exp_0 at 1. apply f_equal. unfold fr. fold P.
  replace (Z.of_nat (Z.to_nat (P - 1)) + 1 - P)%Z with 0%Z by lia. cbn [INR].
  pose proof (INR_N Np Np_pos). field. split; lra.
Qed.
Lemma gauss_le i : (i < Np)%nat -> 0 <= morlet_at Np None sigma i <= G i.
Proof.
  intros Hi. pose proof Np_pos as Hp. unfold morlet_at. rewrite raw_low by assumption.
  pose proof (K_pos N sigma HN Hs) as HK. pose proof (low_normaliser Np sigma Hp Hs) as HL. pose proof (G_pos Np sigma Hp Hs 0 i) as HG.
  pose proof G00 as H0. set (A := l1_norm Np (morlet_raw Np None sigma)) in *.
  assert (HA : 1 / INR K <= A).
  { apply Rle_trans with (G 0%nat / INR K).
    - apply Rmult_le_compat_r; [left; now apply Rinv_0_lt_compat|exact H0].
    - rewrite <- raw_low by assumption.
      assert (E : RtoC (morlet_raw Np None sigma 0) = csum Np (fun t => idft_at Np (fun k => RtoC (morlet_raw Np None sigma k)) (Z.of_nat t))).
      { rewrite <- (dft_idft Np Hp (fun k => RtoC (morlet_raw Np None sigma k)) 0 Hp). unfold dft_at. apply csum_ext. intros t _.
        change (Z.of_nat 0) with 0%Z. rewrite Z.mul_0_l. change (- 0)%Z with 0%Z. rewrite root_0 by exact Hp. ring. }
      apply Rle_trans with (Cmod (RtoC (morlet_raw Np None sigma 0))); [rewrite Cmod_R; apply Rle_abs|].
      rewrite E. eapply Rle_trans; [apply csum_Cmod|]. rewrite rsum_csum. cbn [fst RtoC]. right. reflexivity. }
  assert (HKi : 0 < / INR K) by now apply Rinv_0_lt_compat.
  split.
  - apply Rlt_le, Rdiv_lt_0_compat; [|exact HL]. now apply Rdiv_lt_0_compat.
  - apply Rmult_le_reg_r with A; [exact HL|]. unfold Rdiv at 1. rewrite Rmult_assoc, Rinv_l, Rmult_1_r by lra.
    apply Rmult_le_compat_l; [lra|]. unfold Rdiv in HA. lra.
Qed.

(** [m] indexes the filter periodised to the length [N]; the distance of the root to 1 is that of any frequency it stands for. *)
Lemma root_lattice m z d : Cmod (root N (Z.of_nat m * d) - 1)%C <= 2 * PI * Rabs (IZR d) * Rabs (INR m / INR N + IZR z).
Proof.
  pose proof (INR_N N HN) as HR. pose proof PI_RGT_0.
  assert (E : root N (Z.of_nat m * d) = cis (2 * PI * IZR d * (INR m / INR N + IZR z))).
  { rewrite <- (Cmult_1_r (root N (Z.of_nat m * d))). rewrite <- (root_N N HN (z * d)), <- root_add by exact HN. unfold root. apply f_equal.
    rewrite plus_IZR, !mult_IZR, <- !INR_IZR_INZ. field. lra. }
  rewrite E. eapply Rle_trans; [apply cis_minus_1|]. right. rewrite !Rabs_mult, (Rabs_pos_eq 2), (Rabs_pos_eq PI) by lra. ring.
Qed.
Lemma level_shift m d : (m < N)%nat ->
  rsum n (fun r => morlet_at Np None sigma (r * N + m)) * Cmod (root N (Z.of_nat m * d) - 1)%C <= 4 * (sigma * INR n * Rabs (IZR d)).
Proof.
  intros Hm. pose proof (INR_N N HN) as HR. pose proof (INR_N n Hn) as Hnr. pose proof (Cmod_ge_0 (root N (Z.of_nat m * d) - 1)%C) as HC.
  pose proof (P_range N sigma HN Hs) as HP. pose proof PI_RGT_0 as HPI. pose proof PI_318. pose proof (Rabs_pos (IZR d)) as Hd.
  set (v := INR m / INR N).
  assert (Hv : 0 <= v <= 1).
  { pose proof (pos_INR m). assert (INR m <= INR N) by (apply le_INR; lia). unfold v. split; [now apply Rcomplements.Rdiv_le_0_compat|].
    apply Rcomplements.Rle_div_l; lra. }
  set (a := / (sigma * INR n)). assert (Hsn : 0 < sigma * INR n) by nra.
  assert (Ha : 10 <= a).
  { unfold a. replace 10 with (/ (1 / 10)) by lra. apply Rinv_le_contravar; lra. }
  set (P := Z.min (adaptive_choice_P sigma) 5) in *. set (c := Z.to_nat ((P - 1) * Z.of_nat n)).
  set (h := fun z : Z => gd (Rabs (v + IZR z) * a)).
  apply Rle_trans with (2 * PI * Rabs (IZR d) / a * rsum (K * n) (fun i => h (Z.of_nat i - Z.of_nat c)%Z)).
  - rewrite rsum_mul, rsum_swap, <- !rsum_scal, Rmult_comm, <- rsum_scal. apply rsum_le. intros r Hr.
    rewrite Rmult_comm. eapply Rle_trans.
    { apply Rmult_le_compat_r; [exact HC|]. apply gauss_le. unfold Np. nia. }
    unfold Norm1d.G. rewrite <- rsum_scal, Rmult_comm, <- rsum_scal. apply rsum_le. intros p Hp.
    set (z := (Z.of_nat (p * n + r) - Z.of_nat c)%Z).
    assert (Ef : fr Np sigma p (r * N + m) = (v + IZR z) / INR n).
    { unfold fr, z, c, v, Np. fold P. rewrite Z2Nat.id by nia.
      rewrite !minus_IZR, mult_IZR, minus_IZR, plus_IZR, <- !INR_IZR_INZ, !plus_INR, !mult_INR.
      field. lra. }
    rewrite Ef. pose proof (root_lattice m z d) as HB. fold v in HB.
    eapply Rle_trans; [apply Rmult_le_compat_r; [left; apply exp_pos|exact HB]|]. right. unfold h, gd, a.
    replace (- (((v + IZR z) / INR n - 0) ^ 2) / (2 * sigma ^ 2)) with (- ((Rabs (v + IZR z) * / (sigma * INR n)) ^ 2) / 2).
    2:{ rewrite Rpow_mult_distr, pow2_abs. field. lra. }
    field. lra.
  - assert (Hsum : rsum (K * n) (fun i => h (Z.of_nat i - Z.of_nat c)%Z) <= 628 / 1000).
    { replace (K * n)%nat with (c + (K * n - c))%nat by (unfold c, n_periods; fold P; nia). rewrite rsum_cat.
      rewrite <- (rsum_rev' c), Rplus_comm.
      eapply Rle_trans; [right|apply (gd_lattice a v (K * n - c) c Ha Hv)]. f_equal.
      - apply rsum_ext. intros i Hi. unfold h. apply f_equal. f_equal. replace (Z.of_nat (c + i) - Z.of_nat c)%Z with (Z.of_nat i) by lia.
        rewrite <- INR_IZR_INZ. apply Rabs_pos_eq. pose proof (pos_INR i). lra.
      - apply rsum_ext. intros i Hi. unfold h. apply f_equal. f_equal. replace (Z.of_nat (c - 1 - i) - Z.of_nat c)%Z with (- (1 + Z.of_nat i))%Z by lia.
        rewrite opp_IZR, plus_IZR, <- INR_IZR_INZ. pose proof (pos_INR i). rewrite Rabs_left1 by lra. ring. }
    replace (2 * PI * Rabs (IZR d) / a) with (2 * PI * (sigma * INR n * Rabs (IZR d))) by (unfold a; field; lra).
    set (b := sigma * INR n * Rabs (IZR d)). assert (0 <= b) by (apply Rmult_le_pos; lra).
    assert (0 <= rsum (K * n) (fun i => h (Z.of_nat i - Z.of_nat c)%Z)).
    { apply rsum_pos. intros i _. apply gd_pos. apply Rmult_le_pos; [apply Rabs_pos|lra]. }
    set (S := rsum _ _) in *.
    apply Rle_trans with (2 * PI * b * (628 / 1000)); [apply Rmult_le_compat_l; [nra|exact Hsum]|]. nra.
Qed.
End Gaussian.

(** ** The last step of a path *)
Lemma lowpass_shift x w k d B : List.length w = List.length x -> (0 < List.length x)%nat ->
  (forall m, (m < List.length x)%nat -> Cmod (at_ w m) * Cmod (root (List.length x) (Z.of_nat m * d) - 1)%C <= B) ->
  dist2 (sampled_lowpass (rotate d x) w k) (sampled_lowpass x w k) <= B ^ 2 * nrg x.
Proof.
  intros Hw Hx HB. eapply Rle_trans; [|apply (shift_energy x w d B Hw Hx HB)].
  eapply Rle_trans; [|apply (rsum_every _ k (fun t => Cmod (cconv (rotate d x) (idft w) (Z.of_nat t) - cconv x (idft w) (Z.of_nat t))%C ^ 2)); intros; apply pow2_ge_0].
  unfold dist2. rewrite sampled_lowpass_length, rotate_length. apply rsum_le. intros u Hu. apply pow_incr. split; [apply Cmod_ge_0|].
  unfold sampled_lowpass. rewrite !at_map_seq by (rewrite ?rotate_length; exact Hu). rewrite <- RtoC_minus, Cmod_R. apply Re_sub_abs.
Qed.
Lemma nrg_dist2 x : nrg x = dist2 x (map (Cmult (RtoC 0)) x).
Proof.
  apply rsum_ext. intros u Hu. rewrite at_map_C by exact Hu. do 2 f_equal. ring.
Qed.
Lemma nrg_envelope x w k : (0 < List.length x)%nat -> List.length w = List.length x ->
  nrg (sampled_envelope x w k) <= l1 (idft w) ^ 2 * nrg x.
Proof.
  intros Hx Hw. pose proof (close2_envelope (nrg x) x (map (Cmult (RtoC 0)) x) w k Hx Hw) as H.
  rewrite envelope_scal, Rabs_R0 in H. rewrite nrg_dist2, Rmult_comm. apply H. split; [apply map_length|]. rewrite nrg_dist2. lra.
Qed.

(** The filter of a constructed object. *)
Lemma new_sigma support p out s N T : Scattering1D support p out = Ok s -> N_input_of (p_shape p) = Ok N ->
  T_of (p_T p) (p_J p) N = Ok T -> f_sigma (s_phi s) = sigma0 / Q2R T.
Proof.
  intros H EN ET. apply new_inv in H. destruct H as (b & Qs & T' & l2T & phi & psi1s & psi2s & Hb & EQ' & ET' & El & EF & _ & Es).
  assert (EbN : b_N b = N).
  { destruct (build_inv _ _ _ Hb) as (st & T'' & l & r & EN' & _). congruence. }
  rewrite EbN, ET in ET'. injection ET' as <-. rewrite Es. cbn [s_phi].
  unfold filter_factory in EF. inv_bind EF. destruct v as [psis pj]. inv_bind EF. injection EF as <- _. reflexivity.
Qed.
Lemma phi_shift support p out s N T k n d m : constructed support p out s N -> T_of (p_T p) (p_J p) N = Ok T ->
  (0 <= k)%Z -> IZR (2 ^ k) <= Q2R T -> level_ok (s_phi s) k n -> (m < n)%nat ->
  Cmod (at_ (lev (s_phi s) k) m) * Cmod (root n (Z.of_nat m * d) - 1)%C <= 2 / 5 * Rabs (IZR (2 ^ k * d)) / Q2R T.
Proof.
  intros (Hsup & H & EN & HN & HJ & Hmo) ET Hk HT Hl Hm.
  destruct (new_filters _ _ _ _ _ Hsup H EN HN HJ) as (HNp & Hs & Tphi & _).
  rewrite (new_sigma _ _ _ _ _ _ H EN ET) in *. set (sigma := sigma0 / Q2R T) in *. set (Np := padded_length s N) in *.
  destruct Hl as (w & Ew & Sw & _ & Lw). destruct (tb_k _ _ _ Tphi _ _ Ew) as (D & Sw' & Lw' & Hw).
  rewrite Sw in Sw'. injection Sw' as En. rewrite <- En in Hw.
  assert (ENp : Np = (2 ^ Z.to_nat k * n)%nat).
  { destruct D as [q Hq]. rewrite En, Hq. rewrite Nat.div_mul by (apply Nat.pow_nonzero; lia). lia. }
  assert (E2 : INR (2 ^ Z.to_nat k) = IZR (2 ^ k)).
  { rewrite INR_IZR_INZ. apply f_equal. rewrite Nat2Z.inj_pow, Z2Nat.id by exact Hk. reflexivity. }
  assert (P2 : 0 < IZR (2 ^ k)) by (apply IZR_lt; lia). assert (HT0 : 0 < Q2R T) by lra.
  assert (Esig : sigma = 1 / 10 / Q2R T) by reflexivity.
  unfold lev. rewrite Ew, (Hw m Hm).
  eapply Rle_trans; [apply Rmult_le_compat_r; [apply Cmod_ge_0|]|apply Rle_trans with (4 * (sigma * INR (2 ^ Z.to_nat k) * Rabs (IZR d)));
    [apply (level_shift n (2 ^ Z.to_nat k) sigma ltac:(lia) ltac:(apply Nat.neq_0_lt_0, Nat.pow_nonzero; lia) Hs)|]].
  - eapply Rle_trans; [apply csum_Cmod|]. rewrite rsum_csum. cbn [fst RtoC]. right. rewrite <- ENp. apply rsum_ext. intros r Hr.
    assert (Hi : (r * n + m < Np)%nat) by (rewrite ENp; nia).
    unfold gauss_1d. rewrite morlet_data_at by exact Hi. rewrite Cmod_R. apply Rabs_pos_eq.
    rewrite ENp. apply (gauss_le n (2 ^ Z.to_nat k) sigma ltac:(lia) ltac:(apply Nat.neq_0_lt_0, Nat.pow_nonzero; lia) Hs). lia.
  - rewrite E2, Esig. apply Rmult_le_reg_r with (10 * Q2R T); [lra|]. field_simplify; lra.
  - exact Hm.
  - rewrite E2, Esig, mult_IZR, Rabs_mult, (Rabs_pos_eq (IZR (2 ^ k))) by lra. right. field. lra.
Qed.

(** ** Coefficients of one padded signal *)
Local Open Scope Z_scope.
(** The resolution at which a path meets the low-pass filter. *)
Definition entry {W P} (psi1s psi2s : list (Core1d.filter W P)) (ls : Z) (key : list nat) : Z :=
  match key with
  | [] => 0
  | [n1] => match nth_error psi1s n1 with Some f1 => Z.min (f_j f1) ls | None => 0 end
  | _ :: n2 :: _ => match nth_error psi2s n2 with Some f2 => Z.min (f_j f2) ls | None => 0 end
  end.
(** The product of the norms of the wavelets of a path. *)
Definition wgain {P} (psi1s psi2s : list (Core1d.filter (nd C) P)) (ls : Z) (key : list nat) : R :=
  match key with
  | [] => 1
  | n1 :: key' =>
    match nth_error psi1s n1 with
    | None => 0
    | Some f1 =>
      match key' with
      | [] => l1 (idft (lev f1 0))
      | n2 :: _ => match nth_error psi2s n2 with
                   | None => 0
                   | Some f2 => l1 (idft (lev f1 0)) * l1 (idft (lev f2 (Z.min (f_j f1) ls)))
                   end
      end
    end
  end%R.
Section Values.
Context {P : Type}.
Notation filter := (Core1d.filter (nd C) P).
Variables (phi : filter) (psi1s psi2s : list filter) (two : bool) (N : nat) (ls : Z).
Hypothesis (Ha : adm phi psi1s psi2s two N ls true).
Notation val := (value complex_ops phi psi1s psi2s N ls true).
Lemma value_shift d B row key : List.length row = N -> valid_key psi1s psi2s two key ->
  let k := entry psi1s psi2s ls key in
  (level_ok phi k (N / p2 k) -> forall m, (m < N / p2 k)%nat ->
     Cmod (at_ (lev phi k) m) * Cmod (root (N / p2 k) (Z.of_nat m * d) - 1)%C <= B)%R ->
  (dist2 (val key (rotate (Z.of_nat (p2 k) * d) row)) (val key row) <= (B * wgain psi1s psi2s ls key) ^ 2 * nrg row)%R.
Proof.
  intros Hrow Hk k. assert (Ek : k = entry psi1s psi2s ls key) by reflexivity. clearbody k. intros HB.
  assert (Hrow' : List.length (rotate (Z.of_nat (p2 k) * d) row) = N) by now rewrite rotate_length.
  pose proof (value_local _ _ _ _ _ _ _ Ha _ Hrow _ eq_refl Hk) as V.
  pose proof (value_local _ _ _ _ _ _ _ Ha _ Hrow' _ eq_refl Hk) as V'.
  pose proof (adm_N _ _ _ _ _ _ _ Ha) as HN. pose proof (adm_ls _ _ _ _ _ _ _ Ha) as Hls.
  destruct (adm_phi _ _ _ _ _ _ _ Ha eq_refl) as [Dl Hphi].
  destruct Hk as [|n1 f1 E1|n1 n2 f1 f2 H2 E1 E2 Hj]; unfold entry in Ek; unfold wgain; rewrite ?E1, ?E2; rewrite ?E1, ?E2 in Ek.
  - rewrite V, V'. subst k. rewrite p2_0, Nat.div_1_r in HB. rewrite p2_0. change (Z.of_nat 1) with 1. rewrite Z.mul_1_l, Rmult_1_r.
    specialize (HB Hphi). apply level_length in Hphi. apply lowpass_shift; rewrite ?Hrow; assumption.
  - rewrite (V f1 E1), (V' f1 E1). cbv zeta. clear V V'.
    destruct (adm_psi1 _ _ _ _ _ _ _ Ha f1 (nth_error_In _ _ E1)) as (G1 & G2 & G3 & G4). specialize (G4 eq_refl).
    destruct (env1_spec _ _ _ _ _ _ _ Ha row Hrow n1 f1 E1) as (S1 & L1 & K1 & D1 & B1 & P1). unfold kk in *. rewrite <- Ek in *.
    rewrite S1 in L1. specialize (HB G4). apply level_length in G2, G4.
    rewrite rotate_envelope by (rewrite ?Hrow; try lia; try assumption; apply p2_pos).
    set (e := sampled_envelope row (lev f1 0) (p2 k)) in *.
    eapply Rle_trans; [apply (lowpass_shift e (lev phi k) (p2 (ls - k)) d B); rewrite ?L1; assumption|].
    rewrite Rpow_mult_distr, Rmult_assoc. apply Rmult_le_compat_l; [apply pow2_ge_0|]. apply nrg_envelope; [lia|congruence].
  - rewrite (V f1 f2 E1 E2), (V' f1 f2 E1 E2). cbv zeta. clear V V'.
    destruct (adm_psi1 _ _ _ _ _ _ _ Ha f1 (nth_error_In _ _ E1)) as (G1 & G2 & G3 & G4).
    destruct (adm_psi2 _ _ _ _ _ _ _ Ha H2 f1 f2 (nth_error_In _ _ E1) (nth_error_In _ _ E2) Hj) as (Q1 & _ & Q3). specialize (Q3 eq_refl).
    destruct (env1_spec _ _ _ _ _ _ _ Ha row Hrow n1 f1 E1) as (S1 & L1 & K1 & D1 & B1 & P1).
    destruct (env2_spec _ _ _ _ _ _ _ Ha row Hrow n1 n2 f1 f2 H2 E1 E2 Hj) as (S2 & L2 & K2 & D2 & B2 & P2). unfold kk in *. rewrite <- Ek in *.
    set (k1 := Z.min (f_j f1) ls) in *. rewrite S1 in L1. rewrite S2 in L2. specialize (HB Q3). apply level_length in G2, Q1, Q3.
    destruct (p2_divide k1 k N ltac:(lia) D2) as (_ & D5 & D6).
    replace (Z.of_nat (p2 k) * d) with (Z.of_nat (p2 k1) * (Z.of_nat (p2 (k - k1)) * d)).
    2:{ replace k with (k1 + (k - k1)) at 2 by lia. rewrite p2_add by lia. lia. }
    rewrite rotate_envelope by (rewrite ?Hrow; try lia; try assumption; apply p2_pos).
    rewrite rotate_envelope; [|apply p2_pos|rewrite L1; exact D5|rewrite L1; exact P1].
    set (e1 := sampled_envelope row (lev f1 0) (p2 k1)) in *. set (e2 := sampled_envelope e1 (lev f2 k1) (p2 (k - k1))) in *.
    eapply Rle_trans; [apply (lowpass_shift e2 (lev phi k) (p2 (ls - k)) d B); rewrite ?L2; assumption|].
    rewrite Rpow_mult_distr, Rmult_assoc. apply Rmult_le_compat_l; [apply pow2_ge_0|].
    eapply Rle_trans; [apply nrg_envelope; [rewrite L1; exact P1|congruence]|].
    rewrite Rpow_mult_distr, (Rmult_comm (l1 (idft (lev f1 0)) ^ 2)), Rmult_assoc. apply Rmult_le_compat_l; [apply pow2_ge_0|].
    apply nrg_envelope; [lia|congruence].
Qed.
End Values.
