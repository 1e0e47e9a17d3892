(** Facts on the filter-bank formulas, and the proof that they meet the requirements of FactoryProofs.v. *)
From Coq Require Import Reals ZArith List Lia Lra Psatz QArith.
From Coquelicot Require Import Complex.
From Verif Require Import Base NdArray ComplexOps Utils1d Core1d Factory1d FactoryProofs FilterBank1d.
Import ListNotations.
Local Open Scope R_scope.

(** * Numeric bounds *)
Lemma pow_exp x n : exp x ^ n = exp (INR n * x).
Proof.
  induction n as [|n IH].
  - simpl. now rewrite Rmult_0_l, exp_0.
  - rewrite <- tech_pow_Rmult, IH, <- exp_plus. f_equal. rewrite S_INR. ring.
Qed.
Lemma ln2_upper : ln 2 < 70 / 100.
Proof.
  apply exp_lt_inv. rewrite exp_ln by lra.
  replace (70 / 100) with (INR 64 * (70 / 6400)) by (simpl; lra).
  rewrite <- pow_exp.
  apply Rlt_le_trans with ((1 + 70 / 6400) ^ 64).
  - lra.
  - apply pow_incr. split; [lra|]. apply exp_ineq1_le.
Qed.
Lemma ln2_lower : 68 / 100 < ln 2.
Proof.
  apply exp_lt_inv. rewrite exp_ln by lra.
  apply Ropp_lt_cancel.
  assert (H : (1 - 68 / 6400) ^ 64 <= exp (- (68 / 100))).
  { replace (- (68 / 100)) with (INR 64 * (- (68 / 6400))) by (simpl; lra).
    rewrite <- pow_exp. apply pow_incr. split; [lra|].
    replace (1 - 68 / 6400) with (1 + - (68 / 6400)) by ring. apply exp_ineq1_le. }
  rewrite exp_Ropp in H.
  assert (H2 : 1 / 2 < (1 - 68 / 6400) ^ 64) by lra.
  pose proof (exp_pos (68 / 100)).
  assert (H3 : 1 / 2 * exp (68 / 100) < 1).
  { apply Rlt_le_trans with (/ exp (68 / 100) * exp (68 / 100)).
    - apply Rmult_lt_compat_r; lra.
    - right. apply Rinv_l. lra. }
  lra.
Qed.
Lemma ln2_pos : 0 < ln 2.
Proof. pose proof ln2_lower. lra. Qed.
Lemma sqrt_ln2 : 82 / 100 < sqrt (ln 2) < 84 / 100.
Proof.
  pose proof ln2_lower. pose proof ln2_upper. split.
  - rewrite <- (sqrt_Rsqr (82 / 100)) by lra. apply sqrt_lt_1; unfold Rsqr; lra.
  - rewrite <- (sqrt_Rsqr (84 / 100)) by lra. apply sqrt_lt_1; unfold Rsqr; lra.
Qed.

(** * The ratio 2^(1/Q) *)
Definition ratio (Q : Z) : R := Rpower 2 (1 / IZR Q).
Lemma IZR_ge1 Q : (1 <= Q)%Z -> 1 <= IZR Q.
Proof. intros H. now apply IZR_le. Qed.
Lemma ratio_pow Q : (1 <= Q)%Z -> ratio Q ^ Z.to_nat Q = 2.
Proof.
  intros H. unfold ratio. rewrite <- Rpower_pow by apply exp_pos.
  rewrite Rpower_mult, INR_IZR_INZ, Z2Nat.id by lia.
  pose proof (IZR_ge1 _ H).
  replace (1 / IZR Q * IZR Q) with 1 by (field; lra). apply Rpower_1. lra.
Qed.
Lemma ratio_lower Q : (1 <= Q)%Z -> ln 2 / IZR Q <= ratio Q - 1.
Proof.
  intros H. unfold ratio, Rpower. pose proof (exp_ineq1_le (1 / IZR Q * ln 2)).
  unfold Rdiv in *. lra.
Qed.
Lemma ratio_gt1 Q : (1 <= Q)%Z -> 1 < ratio Q.
Proof.
  intros H. pose proof (ratio_lower Q H). pose proof (IZR_ge1 _ H). pose proof ln2_pos.
  assert (0 < ln 2 / IZR Q) by (apply Rdiv_lt_0_compat; lra). lra.
Qed.
Lemma ratio_mono Q Q' : (1 <= Q <= Q')%Z -> ratio Q' <= ratio Q.
Proof.
  intros H. unfold ratio. apply Rle_Rpower; [lra|].
  assert (1 <= IZR Q) by (apply IZR_le; lia). assert (IZR Q <= IZR Q') by (apply IZR_le; lia).
  unfold Rdiv. rewrite !Rmult_1_l. apply Rinv_le_contravar; lra.
Qed.
Lemma ratio_1 : ratio 1 = 2.
Proof. pose proof (ratio_pow 1 ltac:(lia)) as H. simpl in H. lra. Qed.
Lemma ratio_le2 Q : (1 <= Q)%Z -> ratio Q <= 2.
Proof. intros H. rewrite <- ratio_1. apply ratio_mono. lia. Qed.
Lemma ratio_2 : ratio 2 <= 1415 / 1000.
Proof.
  pose proof (ratio_pow 2 ltac:(lia)) as H. simpl in H. pose proof (ratio_gt1 2 ltac:(lia)).
  nra.
Qed.
Lemma ratio_le_sqrt2 Q : (2 <= Q)%Z -> ratio Q <= 1415 / 1000.
Proof. intros H. eapply Rle_trans; [apply (ratio_mono 2); lia|apply ratio_2]. Qed.
(** Bernoulli: 2^(1/Q) (Q - 1) <= Q. *)
Lemma ratio_elbow Q : (1 <= Q)%Z -> ratio Q * (1 - 1 / IZR Q) <= 1.
Proof.
  intros H. destruct (Z.eq_dec Q 1) as [->|Hq]; [unfold Rdiv; lra|].
  assert (Hq1 : 1 <= IZR (Q - 1)) by (apply IZR_le; lia). rewrite minus_IZR in Hq1.
  set (y := 1 / (IZR Q - 1)).
  assert (Hy : 0 < y) by (apply Rdiv_lt_0_compat; lra).
  assert (Hu : ratio Q <= 1 + y).
  { apply Rnot_lt_le. intros Hc.
    assert (Hp : (1 + y) ^ Z.to_nat Q < ratio Q ^ Z.to_nat Q).
    {
      assert (forall n, (0 < n)%nat -> (1 + y) ^ n < ratio Q ^ n) as X.
      { induction n as [|n IH]; [lia|]. intros _. destruct n as [|n].
        - simpl. lra.
        - specialize (IH ltac:(lia)). rewrite <- (tech_pow_Rmult _ (S n)), <- (tech_pow_Rmult (ratio Q) (S n)).
          pose proof (pow_lt (1 + y) (S n) ltac:(lra)). nra. }
      apply X. lia. }
    rewrite ratio_pow in Hp by lia.
    pose proof (poly (Z.to_nat Q) y Hy) as HB. rewrite INR_IZR_INZ, Z2Nat.id in HB by lia.
    assert (1 <= IZR Q * y). { unfold y. apply Rmult_le_reg_r with (IZR Q - 1); [lra|]. field_simplify; lra. }
    lra. }
  pose proof (ratio_gt1 Q H).
  apply Rle_trans with ((1 + y) * (1 - 1 / IZR Q)).
  - apply Rmult_le_compat_r; [|assumption].
    assert (1 / IZR Q <= 1) by (apply Rmult_le_reg_r with (IZR Q); [lra|]; field_simplify; lra). lra.
  - right. unfold y. field. lra.
Qed.

(** * The constant-Q bandwidth ratio sigma/xi *)
Definition rho (Q : Z) : R := (ratio Q - 1) / (ratio Q + 1) / sqrt (ln 2).
Lemma sigma_rho xi Q : (1 <= Q)%Z -> compute_sigma_psi xi Q r_psi = rho Q * xi.
Proof.
  intros H. unfold compute_sigma_psi, r_psi, rho. fold (ratio Q). pose proof (ratio_gt1 Q H).
  assert (Hs : 0 < sqrt (1 / 2)) by (apply sqrt_lt_R0; lra).
  replace (2 * ln (1 / sqrt (1 / 2))) with (ln 2).
  - pose proof sqrt_ln2. field. lra.
  - unfold Rdiv at 1. rewrite Rmult_1_l, ln_Rinv by assumption.
    assert (E : ln (sqrt (1 / 2)) = / 2 * ln (1 / 2)).
    { rewrite <- (sqrt_sqrt (1 / 2)) at 2 by lra. rewrite ln_mult by assumption. field. }
    rewrite E. replace (1 / 2) with (/ 2) by lra. rewrite ln_Rinv by lra. field.
Qed.
Lemma rho_pos Q : (1 <= Q)%Z -> 0 < rho Q.
Proof.
  intros H. pose proof (ratio_gt1 Q H). pose proof sqrt_ln2. unfold rho.
  repeat apply Rdiv_lt_0_compat; lra.
Qed.
Lemma rho_mono Q Q' : (1 <= Q <= Q')%Z -> rho Q' <= rho Q.
Proof.
  intros H. pose proof (ratio_mono Q Q' H). pose proof (ratio_gt1 Q' ltac:(lia)). pose proof sqrt_ln2.
  unfold rho, Rdiv at 1 3. apply Rmult_le_compat_r.
  - left. apply Rinv_0_lt_compat. lra.
  - apply Rmult_le_reg_r with (ratio Q' + 1); [lra|]. apply Rmult_le_reg_r with (ratio Q + 1); [lra|].
    field_simplify; lra || nra.
Qed.
Lemma rho_1 : 3968 / 10000 < rho 1 < 4066 / 10000.
Proof.
  unfold rho. rewrite ratio_1. pose proof sqrt_ln2 as [H1 H2].
  replace ((2 - 1) / (2 + 1)) with (1 / 3) by lra. split.
  - apply Rmult_lt_reg_r with (sqrt (ln 2)); [lra|]. field_simplify; lra.
  - apply Rmult_lt_reg_r with (sqrt (ln 2)); [lra|]. field_simplify; lra.
Qed.
Lemma rho_lt1 Q : (1 <= Q)%Z -> rho Q < 1.
Proof. intros H. pose proof (rho_mono 1 Q ltac:(lia)). pose proof rho_1. lra. Qed.

Lemma xi_max_lt Q : (1 <= Q)%Z -> 35 / 100 <= compute_xi_max Q < 1 / 2.
Proof.
  intros H. unfold compute_xi_max. split; [apply Rmax_r|]. apply Rmax_lub_lt; [|lra].
  assert (1 < Rpower 2 (3 / IZR Q)).
  { pose proof (IZR_ge1 _ H). rewrite <- (Rpower_O 2) by lra. apply Rpower_lt; [lra|]. apply Rdiv_lt_0_compat; lra. }
  apply Rmult_lt_reg_r with (1 + Rpower 2 (3 / IZR Q)); [lra|]. field_simplify; lra.
Qed.
Lemma xi_max_1 : compute_xi_max 1 = 35 / 100.
Proof.
  unfold compute_xi_max. apply Rmax_right.
  replace (Rpower 2 (3 / 1)) with 8; [lra|].
  replace (3 / 1) with (INR 3) by (simpl; lra). rewrite Rpower_pow by lra. simpl. lra.
Qed.

(** * The generator *)
Lemma Rdiv_1 x : x / 1 = x.
Proof. field. Qed.
Lemma u_pow_pos u n : 1 < u -> 0 < u ^ n.
Proof. intros. apply pow_lt. lra. Qed.
Lemma u_pow_lt u m n : 1 < u -> (m < n)%nat -> u ^ m < u ^ n.
Proof. intros Hu H. now apply Rlt_pow. Qed.
Lemma div_pow_lt x u m n : 1 < u -> 0 < x -> (m < n)%nat -> x / u ^ n < x / u ^ m.
Proof.
  intros Hu Hx H. unfold Rdiv. apply Rmult_lt_compat_l; [assumption|].
  pose proof (u_pow_pos u m Hu). pose proof (u_pow_pos u n Hu). pose proof (u_pow_lt u m n Hu H).
  apply Rinv_lt_contravar; [|assumption]. now apply Rmult_lt_0_compat.
Qed.
Lemma div_pow_S x u n : 1 < u -> x / u / u ^ n = x / u ^ S n.
Proof. intros Hu. pose proof (u_pow_pos u n Hu). simpl. field. lra. Qed.

Definition geo (u xi sigma : R) (k : nat) : list (R * R) :=
  map (fun i => (xi / u ^ i, sigma / u ^ i)) (seq 0 (S k)).

Lemma geometric_inv u smin : 1 < u -> forall xi sigma g, geometric u smin xi sigma g ->
  exists k, (xi, sigma) :: g = geo u xi sigma k /\ sigma / u ^ k <= smin * u /\
    forall i, (i < k)%nat -> sigma / u ^ i > smin * u.
Proof.
  intros Hu xi sigma g H. induction H as [xi sigma H|xi sigma l H Hg IH].
  - exists 0%nat. unfold geo. simpl. repeat split; [|now rewrite Rdiv_1|lia]. now rewrite !Rdiv_1.
  - destruct IH as (k & E & Hk & Hi). exists (S k). repeat split.
    + rewrite E. unfold geo. change (seq 0 (S (S k))) with (0%nat :: seq 1 (S k)).
      rewrite <- (seq_shift (S k) 0). cbn [map]. rewrite map_map. cbn [pow]. rewrite !Rdiv_1. f_equal.
      apply map_ext. intros i. cbn [pow].
      change (u * u ^ i) with (u ^ S i).
      now rewrite !div_pow_S by assumption.
    + now rewrite <- div_pow_S.
    + intros [|i] Hlt; [cbn [pow]; now rewrite Rdiv_1|]. rewrite <- div_pow_S by assumption. apply Hi. lia.
Qed.

Lemma geometric_det u smin xi sigma g : geometric u smin xi sigma g -> forall g', geometric u smin xi sigma g' -> g = g'.
Proof.
  intros H. induction H as [xi sigma H|xi sigma l H Hg IH]; intros g' H'; inversion H'; subst; try lra; auto.
  now rewrite (IH l0).
Qed.

Lemma geometric_fuel_sound fuel u smin : forall xi sigma g,
  geometric_fuel fuel u smin xi sigma = Some g -> geometric u smin xi sigma g.
Proof.
  induction fuel as [|fuel IH]; intros xi sigma g; simpl; destruct Rle_dec as [L|L]; intros H.
  - injection H; intros <-. now constructor.
  - discriminate.
  - injection H; intros <-. now constructor.
  - destruct (geometric_fuel fuel u smin (xi / u) (sigma / u)) as [g'|] eqn:E; [|discriminate].
    injection H; intros <-. constructor; [lra|]. now apply IH.
Qed.
Lemma geometric_fuel_total fuel u smin : 1 < u -> forall xi sigma, sigma / u ^ fuel <= smin * u ->
  exists g, geometric_fuel fuel u smin xi sigma = Some g.
Proof.
  intros Hu. induction fuel as [|fuel IH]; intros xi sigma H; simpl; destruct Rle_dec as [L|L]; eauto.
  - cbn [pow] in H. rewrite Rdiv_1 in H. lra.
  - destruct (IH (xi / u) (sigma / u)) as [g Hg].
    { now rewrite div_pow_S. }
    rewrite Hg. simpl. eauto.
Qed.

Definition smin (J : Z) : R := sigma0 / powerRZ 2 J.
Lemma pow2J_ge1 J : (0 <= J)%Z -> 1 <= powerRZ 2 J.
Proof.
  intros H. rewrite <- (Z2Nat.id J) by lia. rewrite <- pow_powerRZ. apply pow_R1_Rle. lra.
Qed.
Lemma smin_pos J : (0 <= J)%Z -> 0 < smin J <= 1 / 10.
Proof.
  intros H. pose proof (pow2J_ge1 J H). unfold smin, sigma0. split.
  - apply Rdiv_lt_0_compat; lra.
  - apply Rmult_le_reg_r with (powerRZ 2 J); [lra|]. field_simplify; lra.
Qed.

(** The highest bandwidth is at most 2^(1/Q)/10. *)
Lemma sigma_max Q : (1 <= Q)%Z -> rho Q * compute_xi_max Q <= ratio Q / 10.
Proof.
  intros H. destruct (Z.eq_dec Q 1) as [->|Hq].
  - rewrite xi_max_1, ratio_1. pose proof rho_1. lra.
  - pose proof (ratio_le_sqrt2 Q ltac:(lia)) as U. pose proof (ratio_gt1 Q H) as U1.
    pose proof (xi_max_lt Q H) as X. pose proof (rho_pos Q H).
    apply Rle_trans with (rho Q * (1 / 2)); [nra|].
    unfold rho. pose proof sqrt_ln2 as [S1 S2].
    apply Rmult_le_reg_r with ((ratio Q + 1) * sqrt (ln 2)); [nra|].
    replace ((ratio Q - 1) / (ratio Q + 1) / sqrt (ln 2) * (1 / 2) * ((ratio Q + 1) * sqrt (ln 2)))
      with ((ratio Q - 1) / 2) by (field; lra).
    assert (ratio Q / 10 * ((ratio Q + 1) * (82 / 100)) <= ratio Q / 10 * ((ratio Q + 1) * sqrt (ln 2))).
    { apply Rmult_le_compat_l; [lra|]. apply Rmult_le_compat_l; lra. }
    nra.
Qed.

Lemma ratio_pow_mul Q J : (1 <= Q)%Z -> (0 <= J)%Z -> ratio Q ^ Z.to_nat (J * Q) = powerRZ 2 J.
Proof.
  intros H HJ. rewrite Z.mul_comm, Z2Nat.inj_mul by lia. rewrite pow_mult, ratio_pow by assumption.
  rewrite pow_powerRZ, Z2Nat.id by lia. reflexivity.
Qed.

(** The number of loop iterations is at most J*Q. *)
Lemma loop_bound Q J : (1 <= Q)%Z -> (0 <= J)%Z ->
  rho Q * compute_xi_max Q / ratio Q ^ Z.to_nat (J * Q) <= smin J * ratio Q.
Proof.
  intros H HJ. rewrite ratio_pow_mul by assumption. pose proof (sigma_max Q H) as M.
  pose proof (pow2J_ge1 J HJ). unfold smin, sigma0.
  apply Rmult_le_reg_r with (powerRZ 2 J); [lra|].
  replace (rho Q * compute_xi_max Q / powerRZ 2 J * powerRZ 2 J) with (rho Q * compute_xi_max Q) by (field; lra).
  replace (1 / 10 / powerRZ 2 J * ratio Q * powerRZ 2 J) with (ratio Q / 10) by (field; lra). exact M.
Qed.
Lemma bound_later x u m n : 1 < u -> 0 < x -> (m <= n)%nat -> x / u ^ n <= x / u ^ m.
Proof.
  intros Hu Hx H. destruct (Nat.eq_dec m n) as [->|]; [lra|]. left. apply div_pow_lt; assumption || lia.
Qed.

Lemma anden_unique J Q s r l l' : anden J Q s r l -> anden J Q s r l' -> l = l'.
Proof.
  unfold anden. cbv zeta. intros [[H E]|[H (g & Hg & E)]] [[H' E']|[H' (g' & Hg' & E')]]; subst; try lra; auto.
  now rewrite (geometric_det _ _ _ _ _ Hg _ Hg').
Qed.

Lemma anden_list_ok J Q : (0 <= J)%Z -> (1 <= Q)%Z -> anden J Q sigma0 r_psi (anden_list J Q sigma0 r_psi).
Proof.
  intros HJ HQ. unfold anden, anden_list. cbv zeta. fold (smin J) (ratio Q). rewrite sigma_rho by assumption.
  destruct Rle_dec as [L|L]; [now left|]. right. split; [lra|].
  destruct (geometric_fuel_total (Z.to_nat ((J + 1) * Q)) (ratio Q) (smin J) (ratio_gt1 Q HQ)
              (compute_xi_max Q) (rho Q * compute_xi_max Q)) as [g Hg].
  - eapply Rle_trans; [|apply loop_bound; assumption].
    pose proof (rho_pos Q HQ). pose proof (xi_max_lt Q HQ).
    apply bound_later; [now apply ratio_gt1|nra|]. apply Z2Nat.inj_le; nia.
  - rewrite Hg. exists g. split; [|reflexivity]. eapply geometric_fuel_sound; eassumption.
Qed.

(** Shape of the list of (xi, sigma). *)
Definition arith (Q : Z) (xe s : R) : list (R * R) :=
  map (fun q => (xe * (1 - INR (S q) / IZR Q), s)) (seq 0 (Z.to_nat (Q - 1))).
Lemma arithmetic_arith xe s Q : (1 <= Q)%Z -> arithmetic xe s Q = arith Q xe s.
Proof.
  intros H. pose proof (IZR_ge1 _ H). unfold arithmetic, arith. apply map_ext. intros q. f_equal. field. lra.
Qed.
Lemma geo_last u xi s k : last (geo u xi s k) (0, 0) = (xi / u ^ k, s / u ^ k).
Proof. unfold geo. rewrite seq_S, map_app. cbn [map]. now rewrite last_last. Qed.

Lemma anden_shape J Q l : (0 <= J)%Z -> (1 <= Q)%Z -> anden J Q sigma0 r_psi l ->
  let x0 := compute_xi_max Q in
  (rho Q * x0 <= smin J /\ l = arith Q (rho Q * x0) (smin J)) \/
  (exists k, (k <= Z.to_nat (J * Q))%nat /\
     smin J < rho Q * x0 / ratio Q ^ k <= smin J * ratio Q /\
     (forall i, (i < k)%nat -> rho Q * x0 / ratio Q ^ i > smin J * ratio Q) /\
     l = geo (ratio Q) x0 (rho Q * x0) k ++ arith Q (x0 / ratio Q ^ k) (smin J)).
Proof.
  intros HJ HQ H x0. unfold anden in H. cbv zeta in H. fold (smin J) (ratio Q) in H.
  rewrite sigma_rho in H by assumption. fold x0 in H.
  pose proof (ratio_gt1 Q HQ) as U.
  destruct H as [[H E]|[H (g & Hg & E)]].
  - left. split; [exact H|]. rewrite E. now apply arithmetic_arith.
  - right. apply geometric_inv in Hg; [|exact U]. destruct Hg as (k & E2 & Hk & Hi). exists k.
    rewrite E2, geo_last, arithmetic_arith in E by assumption. cbn [fst] in E.
    assert (P0 : 0 < rho Q * x0).
    { pose proof (rho_pos Q HQ). pose proof (xi_max_lt Q HQ). unfold x0. nra. }
    repeat split; try assumption.
    + destruct (Nat.le_gt_cases k (Z.to_nat (J * Q))) as [L|L]; [exact L|exfalso].
      specialize (Hi _ L). pose proof (loop_bound Q J HQ HJ) as B. fold x0 in B. lra.
    + destruct k as [|k]; [cbn [pow]; rewrite Rdiv_1; lra|].
      specialize (Hi k ltac:(lia)). apply Rmult_lt_reg_r with (ratio Q); [lra|].
      pose proof (u_pow_pos (ratio Q) k U).
      replace (rho Q * x0 / ratio Q ^ S k * ratio Q) with (rho Q * x0 / ratio Q ^ k) by (simpl; field; lra).
      lra.
Qed.

(** * get_max_dyadic_subsampling *)
Lemma le_floor m x : (m <= Rfloor x)%Z <-> IZR m <= x.
Proof.
  unfold Rfloor. destruct (base_Int_part x) as [H1 H2]. split; intros H.
  - apply IZR_le in H. lra.
  - apply Z.lt_succ_r. apply lt_IZR. unfold Z.succ. rewrite plus_IZR. lra.
Qed.
Lemma le_neg_log2 m b : 0 < b -> (IZR m <= - log2 b <-> b <= powerRZ 2 (- m)).
Proof.
  intros Hb. pose proof ln2_pos. rewrite powerRZ_Rpower by lra. unfold log2.
  rewrite <- (exp_ln b Hb) at 2. unfold Rpower. rewrite opp_IZR. split; intros H1.
  - assert (ln b <= - IZR m * ln 2).
    { apply Rmult_le_reg_r with (/ ln 2); [now apply Rinv_0_lt_compat|].
      replace (- IZR m * ln 2 * / ln 2) with (- IZR m) by (field; lra). unfold Rdiv in H1. lra. }
    destruct (Req_dec (ln b) (- IZR m * ln 2)) as [->|]; [lra|]. left. apply exp_increasing. lra.
  - assert (ln b <= - IZR m * ln 2).
    { apply Rnot_lt_le. intros Hc. apply exp_increasing in Hc. lra. }
    apply Rmult_le_reg_r with (ln 2); [assumption|].
    replace (- (ln b / ln 2) * ln 2) with (- ln b) by (field; lra). lra.
Qed.
Lemma max_dyadic_spec xi s a m : 0 < s -> 0 < a ->
  (m <= get_max_dyadic_subsampling xi s a)%Z <-> Rmin (Rabs xi + a * s) (1 / 2) <= powerRZ 2 (- (m + 1)).
Proof.
  intros Hs Ha. unfold get_max_dyadic_subsampling.
  assert (Hb : 0 < Rmin (Rabs xi + a * s) (1 / 2)).
  { apply Rmin_glb_lt; [|lra]. pose proof (Rabs_pos xi). assert (0 < a * s) by now apply Rmult_lt_0_compat. lra. }
  rewrite <- le_neg_log2, <- le_floor by assumption. lia.
Qed.

Definition scale (xi s : R) : Z := get_max_dyadic_subsampling xi s alpha.
Lemma scale_spec xi s m : 0 < xi -> 0 < s ->
  (m <= scale xi s)%Z <-> Rmin (xi + 5 * s) (1 / 2) <= powerRZ 2 (- (m + 1)).
Proof.
  intros Hx Hs. unfold scale. rewrite max_dyadic_spec by (unfold alpha; lra).
  rewrite Rabs_pos_eq by lra. reflexivity.
Qed.
Lemma scale_ge0 xi s : 0 < xi -> 0 < s -> (0 <= scale xi s)%Z.
Proof.
  intros. apply scale_spec; [assumption..|]. simpl. pose proof (Rmin_r (xi + 5 * s) (1 / 2)). lra.
Qed.
Lemma scale_anti xi s xi' s' : 0 < xi <= xi' -> 0 < s <= s' -> (scale xi' s' <= scale xi s)%Z.
Proof.
  intros H H'. apply scale_spec; [lra..|].
  apply Rle_trans with (Rmin (xi' + 5 * s') (1 / 2)); [apply Rle_min_compat_r; lra|].
  apply (scale_spec xi' s'); [lra|lra|]. apply Z.le_refl.
Qed.
Lemma powerRZ2_pos m : 0 < powerRZ 2 m.
Proof. apply powerRZ_lt. lra. Qed.
Lemma powerRZ2_add m n : powerRZ 2 (m + n) = powerRZ 2 m * powerRZ 2 n.
Proof. apply powerRZ_add. lra. Qed.
Lemma powerRZ2_opp m : powerRZ 2 (- m) = / powerRZ 2 m.
Proof. apply powerRZ_neg'. Qed.

(** The first construction-time assertion. *)
Lemma below_nyquist xi s : 0 < xi < 1 / 2 -> 0 < s -> xi < 1 / 2 / powerRZ 2 (scale xi s).
Proof.
  intros Hx Hs.
  pose proof (proj1 (scale_spec xi s (scale xi s) ltac:(lra) Hs) (Z.le_refl _)) as H.
  rewrite powerRZ2_opp, powerRZ2_add in H. pose proof (powerRZ2_pos (scale xi s)) as P.
  eapply Rlt_le_trans; [|eapply Rle_trans; [exact H|]].
  - apply Rmin_glb_lt; lra.
  - right. simpl. field. lra.
Qed.

(** * Facts on every filterbank *)
Definition bandwidth (J Q : Z) (xi : R) : R := Rmax (rho Q * xi) (smin J).
Lemma bandwidth_pos J Q xi : (0 <= J)%Z -> 0 < bandwidth J Q xi.
Proof. intros H. pose proof (smin_pos J H). pose proof (Rmax_r (rho Q * xi) (smin J)). unfold bandwidth. lra. Qed.

Lemma arith_frac Q q : (1 <= Q)%Z -> (q < Z.to_nat (Q - 1))%nat ->
  1 / IZR Q <= 1 - INR (S q) / IZR Q <= 1 - 1 / IZR Q.
Proof.
  intros HQ Hq. pose proof (IZR_ge1 _ HQ).
  assert (H1 : 1 <= INR (S q)) by (rewrite S_INR; pose proof (pos_INR q); lra).
  assert (H2 : INR (S q) <= IZR Q - 1).
  { rewrite <- minus_IZR, INR_IZR_INZ. apply IZR_le. lia. }
  split; apply Rmult_le_reg_r with (IZR Q); try lra.
  - replace ((1 - INR (S q) / IZR Q) * IZR Q) with (IZR Q - INR (S q)) by (field; lra).
    replace (1 / IZR Q * IZR Q) with 1 by (field; lra). lra.
  - replace ((1 - INR (S q) / IZR Q) * IZR Q) with (IZR Q - INR (S q)) by (field; lra).
    replace ((1 - 1 / IZR Q) * IZR Q) with (IZR Q - 1) by (field; lra). lra.
Qed.

Lemma In_arith Q xe s a : In a (arith Q xe s) ->
  exists q, (q < Z.to_nat (Q - 1))%nat /\ a = (xe * (1 - INR (S q) / IZR Q), s).
Proof.
  unfold arith. intros H. apply in_map_iff in H as (q & E & Hq). apply in_seq in Hq. exists q. split; [lia|now symmetry].
Qed.
Lemma In_geo u xi s k a : In a (geo u xi s k) -> exists i, (i <= k)%nat /\ a = (xi / u ^ i, s / u ^ i).
Proof.
  unfold geo. intros H. apply in_map_iff in H as (i & E & Hi). apply in_seq in Hi. exists i. split; [lia|now symmetry].
Qed.

Lemma arith_elem J Q xe a : (0 <= J)%Z -> (1 <= Q)%Z -> 0 < xe < 1 / 2 -> rho Q * xe <= smin J * ratio Q ->
  In a (arith Q xe (smin J)) -> 0 < fst a < xe /\ snd a = bandwidth J Q (fst a).
Proof.
  intros HJ HQ Hxe Hr Ha. apply In_arith in Ha as (q & Hq & ->). cbn [fst snd].
  pose proof (arith_frac Q q HQ Hq) as [F1 F2]. pose proof (IZR_ge1 _ HQ) as Q1.
  assert (0 < 1 / IZR Q) by (apply Rdiv_lt_0_compat; lra).
  assert (0 < xe * (1 - INR (S q) / IZR Q) < xe) by (split; nra).
  split; [assumption|]. unfold bandwidth. symmetry. apply Rmax_right.
  pose proof (rho_pos Q HQ) as R0. pose proof (ratio_elbow Q HQ) as RE. pose proof (smin_pos J HJ) as S0.
  pose proof (ratio_gt1 Q HQ).
  apply Rle_trans with (rho Q * xe * (1 - 1 / IZR Q)).
  { rewrite <- Rmult_assoc. apply Rmult_le_compat_l; [|assumption]. left. apply Rmult_lt_0_compat; lra. }
  apply Rle_trans with (smin J * ratio Q * (1 - 1 / IZR Q)); [|nra].
  apply Rmult_le_compat_r; [|assumption]. lra.
Qed.

Lemma anden_elem J Q l a : (0 <= J)%Z -> (1 <= Q)%Z -> anden J Q sigma0 r_psi l -> In a l ->
  0 < fst a < 1 / 2 /\ snd a = bandwidth J Q (fst a).
Proof.
  intros HJ HQ H Ha. pose proof (rho_pos Q HQ) as R0. pose proof (rho_lt1 Q HQ) as R1.
  pose proof (xi_max_lt Q HQ) as X. pose proof (smin_pos J HJ) as S0. pose proof (ratio_gt1 Q HQ) as U.
  apply anden_shape in H; [|assumption..]. cbv zeta in H. set (x0 := compute_xi_max Q) in *.
  destruct H as [[H ->]|(k & Hk & [Hs1 Hs2] & Hi & ->)].
  - assert (0 < rho Q * x0) by nra. assert (rho Q * (rho Q * x0) <= smin J * ratio Q) by nra.
    apply arith_elem in Ha; [|assumption|assumption|lra|assumption]. destruct Ha. split; [|assumption]. lra.
  - pose proof (u_pow_pos (ratio Q) k U) as Pk.
    assert (Xk : 0 < x0 / ratio Q ^ k) by (apply Rdiv_lt_0_compat; lra).
    apply in_app_or in Ha as [Ha|Ha].
    + apply In_geo in Ha as (i & Hik & ->). cbn [fst snd].
      pose proof (u_pow_pos (ratio Q) i U) as Pi.
      assert (Xi : 0 < x0 / ratio Q ^ i) by (apply Rdiv_lt_0_compat; lra).
      assert (Xi' : x0 / ratio Q ^ i <= x0).
      { pose proof (bound_later x0 (ratio Q) 0 i U ltac:(lra) ltac:(lia)) as B. cbn [pow] in B. rewrite Rdiv_1 in B. lra. }
      split; [lra|]. unfold bandwidth.
      replace (rho Q * (x0 / ratio Q ^ i)) with (rho Q * x0 / ratio Q ^ i) by (field; lra).
      symmetry. apply Rmax_left.
      pose proof (bound_later (rho Q * x0) (ratio Q) i k U ltac:(nra) Hik). lra.
    + apply arith_elem in Ha; [destruct Ha; split; [|assumption]|assumption|assumption| |].
      * pose proof (bound_later x0 (ratio Q) 0 k U ltac:(lra) ltac:(lia)) as B. cbn [pow] in B. rewrite Rdiv_1 in B. lra.
      * pose proof (bound_later x0 (ratio Q) 0 k U ltac:(lra) ltac:(lia)) as B. cbn [pow] in B. rewrite Rdiv_1 in B. lra.
      * replace (rho Q * (x0 / ratio Q ^ k)) with (rho Q * x0 / ratio Q ^ k) by (field; lra). assumption.
Qed.

(** Strictly decreasing frequencies. *)
Definition decreasing (l : list (R * R)) : Prop :=
  forall i j a b, (i < j)%nat -> nth_error l i = Some a -> nth_error l j = Some b -> fst b < fst a.
Lemma nth_error_map_seq {A} (f : nat -> A) n i a : nth_error (map f (seq 0 n)) i = Some a -> (i < n)%nat /\ a = f i.
Proof.
  intros H. assert (Hl : (i < n)%nat).
  { assert (nth_error (map f (seq 0 n)) i <> None) by congruence. apply nth_error_Some in H0.
    now rewrite map_length, seq_length in H0. }
  split; [assumption|]. rewrite nth_error_map in H.
  rewrite (nth_error_nth' _ 0%nat) in H by now rewrite seq_length.
  rewrite seq_nth in H by assumption. cbn in H. congruence.
Qed.
Lemma anden_decreasing J Q l : (0 <= J)%Z -> (1 <= Q)%Z -> anden J Q sigma0 r_psi l -> decreasing l.
Proof.
  intros HJ HQ H. pose proof (rho_pos Q HQ) as R0. pose proof (rho_lt1 Q HQ) as R1.
  pose proof (xi_max_lt Q HQ) as X. pose proof (ratio_gt1 Q HQ) as U. pose proof (IZR_ge1 _ HQ) as Q1.
  assert (A : forall xe s, 0 < xe -> decreasing (arith Q xe s)).
  { intros xe s Hxe i j a b Hij Ha Hb.
    apply nth_error_map_seq in Ha as [_ ->]. apply nth_error_map_seq in Hb as [_ ->]. cbn [fst].
    apply Rmult_lt_compat_l; [assumption|]. apply Rplus_lt_compat_l. apply Ropp_lt_contravar.
    apply Rmult_lt_compat_r; [apply Rinv_0_lt_compat; lra|]. apply lt_INR. lia. }
  apply anden_shape in H; [|assumption..]. cbv zeta in H. set (x0 := compute_xi_max Q) in *.
  destruct H as [[H ->]|(k & Hk & [Hs1 Hs2] & Hi & ->)]; [apply A; nra|].
  pose proof (u_pow_pos (ratio Q) k U) as Pk.
  assert (Xk : 0 < x0 / ratio Q ^ k) by (apply Rdiv_lt_0_compat; lra).
  assert (Lg : length (geo (ratio Q) x0 (rho Q * x0) k) = S k) by (unfold geo; now rewrite map_length, seq_length).
  intros i j a b Hij Ha Hb.
  destruct (Nat.lt_ge_cases j (S k)) as [Lj|Lj].
  - rewrite nth_error_app1 in Ha, Hb by lia.
    apply nth_error_map_seq in Ha as [_ ->]. apply nth_error_map_seq in Hb as [_ ->]. cbn [fst].
    apply div_pow_lt; lra || lia.
  - rewrite nth_error_app2 in Hb by lia. destruct (Nat.lt_ge_cases i (S k)) as [Li|Li].
    + rewrite nth_error_app1 in Ha by lia. apply nth_error_map_seq in Ha as [_ ->]. cbn [fst].
      apply nth_error_map_seq in Hb as [Hq ->]. cbn [fst].
      pose proof (arith_frac Q _ HQ Hq) as [F1 F2].
      assert (0 < 1 / IZR Q) by (apply Rdiv_lt_0_compat; lra).
      pose proof (bound_later x0 (ratio Q) i k U ltac:(lra) ltac:(lia)). nra.
    + rewrite nth_error_app2 in Ha by lia. rewrite Lg in *. eapply A; [exact Xk| |eassumption..]. lia.
Qed.

Lemma anden_length J Q l : (0 <= J)%Z -> (1 <= Q)%Z -> anden J Q sigma0 r_psi l ->
  (1 <= Z.of_nat (length l) <= (J + 1) * Q)%Z.
Proof.
  intros HJ HQ H. apply anden_shape in H; [|assumption..]. cbv zeta in H.
  destruct H as [[H ->]|(k & Hk & [Hs1 Hs2] & Hi & ->)].
  - unfold arith. rewrite map_length, seq_length. destruct (Z.eq_dec Q 1) as [->|]; [exfalso|nia].
    rewrite xi_max_1 in H. pose proof rho_1. pose proof (smin_pos J HJ). lra.
  - unfold arith, geo. rewrite app_length, !map_length, !seq_length. nia.
Qed.

Lemma scale_le J Q xi : (0 <= J)%Z -> (1 <= Q)%Z -> 0 < xi -> (scale xi (bandwidth J Q xi) <= Z.max (J - 1) 0)%Z.
Proof.
  intros HJ HQ Hx. apply Z.le_ngt. intros Hc.
  assert (Hm : (Z.max (J - 1) 0 + 1 <= scale xi (bandwidth J Q xi))%Z) by lia.
  pose proof (bandwidth_pos J Q xi HJ) as B0.
  apply scale_spec in Hm; [|assumption..].
  pose proof (Rmax_r (rho Q * xi) (smin J)) as B1. fold (bandwidth J Q xi) in B1.
  assert (B2 : 5 * smin J = powerRZ 2 (- (J + 1))).
  { unfold smin, sigma0. rewrite powerRZ2_opp, powerRZ2_add. pose proof (powerRZ2_pos J). simpl. field. lra. }
  assert (Hmono : powerRZ 2 (- (Z.max (J - 1) 0 + 1 + 1)) <= powerRZ 2 (- (J + 1))).
  { rewrite !powerRZ_Rpower by lra. apply Rle_Rpower; [lra|]. apply IZR_le. lia. }
  assert (Hq : powerRZ 2 (- (Z.max (J - 1) 0 + 1 + 1)) <= 1 / 4).
  { replace (1 / 4) with (powerRZ 2 (-2)) by (simpl; lra).
    rewrite !powerRZ_Rpower by lra. apply Rle_Rpower; [lra|]. apply IZR_le. lia. }
  assert (powerRZ 2 (- (Z.max (J - 1) 0 + 1 + 1)) < Rmin (xi + 5 * bandwidth J Q xi) (1 / 2)) by (apply Rmin_glb_lt; lra).
  lra.
Qed.

Lemma anden_scale_sorted J Q l i j a b : (0 <= J)%Z -> (1 <= Q)%Z -> anden J Q sigma0 r_psi l -> (i < j)%nat ->
  nth_error l i = Some a -> nth_error l j = Some b -> (scale (fst a) (snd a) <= scale (fst b) (snd b))%Z.
Proof.
  intros HJ HQ H Hij Ha Hb.
  destruct (anden_elem J Q l a HJ HQ H (nth_error_In _ _ Ha)) as [Xa Sa].
  destruct (anden_elem J Q l b HJ HQ H (nth_error_In _ _ Hb)) as [Xb Sb].
  pose proof (anden_decreasing J Q l HJ HQ H i j a b Hij Ha Hb) as D. rewrite Sa, Sb.
  apply scale_anti; [lra|]. split; [now apply bandwidth_pos|]. unfold bandwidth.
  apply Rle_max_compat_r. pose proof (rho_pos Q HQ). nra.
Qed.

(** With at least two wavelets per octave the last scale is max(J-1, 0). *)
Lemma anden_last J Q l : (0 <= J)%Z -> (2 <= Q)%Z -> anden J Q sigma0 r_psi l ->
  exists a, In a l /\ scale (fst a) (snd a) = Z.max (J - 1) 0.
Proof.
  intros HJ HQ H. assert (HQ' : (1 <= Q)%Z) by lia.
  pose proof (rho_pos Q HQ') as R0. pose proof (rho_lt1 Q HQ') as R1.
  pose proof (xi_max_lt Q HQ') as X. pose proof (smin_pos J HJ) as S0. pose proof (ratio_gt1 Q HQ') as U.
  assert (Q2 : 2 <= IZR Q) by now apply IZR_le.
  (* it suffices that the elbow frequency is at most 5*Q*smin *)
  assert (K : forall xe, 0 < xe -> xe <= 5 * IZR Q * smin J ->
     exists a, In a (arith Q xe (smin J)) /\ snd a = smin J /\ 0 < fst a <= 5 * smin J).
  { intros xe H1 H2. exists (xe * (1 - INR (S (Z.to_nat (Q - 2))) / IZR Q), smin J). cbn [fst snd].
    split; [|split; [reflexivity|]].
    - unfold arith. apply in_map_iff. exists (Z.to_nat (Q - 2)). split; [reflexivity|]. apply in_seq. lia.
    - assert (E : 1 - INR (S (Z.to_nat (Q - 2))) / IZR Q = / IZR Q).
      { rewrite INR_IZR_INZ. replace (Z.of_nat (S (Z.to_nat (Q - 2)))) with (Q - 1)%Z by lia.
        rewrite minus_IZR. field. lra. }
      rewrite E. pose proof (Rinv_0_lt_compat (IZR Q) ltac:(lra)). split; [nra|].
      apply Rmult_le_reg_r with (IZR Q); [lra|]. rewrite Rmult_assoc, Rinv_l by lra. lra. }
  assert (D : exists a, In a l /\ snd a = smin J /\ 0 < fst a <= 5 * smin J).
  { pose proof H as H'. apply anden_shape in H'; [|assumption..]. cbv zeta in H'. set (x0 := compute_xi_max Q) in *.
    destruct H' as [[H' ->]|(k & Hk & [Hs1 Hs2] & Hi & ->)].
    - apply K; nra.
    - pose proof (u_pow_pos (ratio Q) k U) as Pk.
      assert (Xk : 0 < x0 / ratio Q ^ k) by (apply Rdiv_lt_0_compat; lra).
      destruct (K (x0 / ratio Q ^ k) Xk) as (a & Ha & Hb).
      + (* xe <= smin u / rho <= 5 Q smin *)
        apply Rmult_le_reg_l with (rho Q); [assumption|].
        replace (rho Q * (x0 / ratio Q ^ k)) with (rho Q * x0 / ratio Q ^ k) by (field; lra).
        eapply Rle_trans; [exact Hs2|].
        assert (C : ratio Q <= rho Q * (5 * IZR Q)).
        { pose proof (ratio_lower Q HQ') as LB. pose proof (ratio_le_sqrt2 Q HQ) as UB. pose proof ln2_lower as LL.
          pose proof sqrt_ln2 as [SL SU].
          assert (LB' : 68 / 100 <= (ratio Q - 1) * IZR Q).
          { apply Rle_trans with (ln 2 / IZR Q * IZR Q); [|nra].
            replace (ln 2 / IZR Q * IZR Q) with (ln 2) by (field; lra). lra. }
          unfold rho. apply Rmult_le_reg_r with ((ratio Q + 1) * sqrt (ln 2)); [nra|].
          replace ((ratio Q - 1) / (ratio Q + 1) / sqrt (ln 2) * (5 * IZR Q) * ((ratio Q + 1) * sqrt (ln 2)))
            with (5 * ((ratio Q - 1) * IZR Q)) by (field; lra).
          apply Rle_trans with (ratio Q * ((ratio Q + 1) * (84 / 100))).
          - apply Rmult_le_compat_l; [lra|]. apply Rmult_le_compat_l; lra.
          - nra. }
        nra.
      + exists a. split; [|assumption]. apply in_or_app. now right. }
  destruct D as (a & Ha & Hs & Hx). exists a. split; [assumption|].
  destruct (anden_elem J Q l a HJ HQ' H Ha) as [Xa Sa].
  apply Z.le_antisymm.
  - rewrite Sa. apply scale_le; lia || lra.
  - apply Z.max_lub; [|apply scale_ge0; lra]. apply scale_spec; [lra..|].
    replace (- (J - 1 + 1))%Z with (- J)%Z by lia.
    eapply Rle_trans; [apply Rmin_l|]. rewrite Hs.
    assert (B2 : 10 * smin J = powerRZ 2 (- J)).
    { unfold smin, sigma0. rewrite powerRZ2_opp. pose proof (powerRZ2_pos J). field. lra. }
    lra.
Qed.

Theorem formulas1d_sane : sane formulas1d.
Proof.
  constructor.
  - intros N xi s. cbn. now rewrite map_length, seq_length.
  - intros N s. cbn. now rewrite map_length, seq_length.
  - intros J q xi s HJ Hq Hin. cbn [fo_bank fo_j formulas1d] in *. fold (scale xi s).
    pose proof (anden_elem J q _ _ HJ Hq (anden_list_ok J q HJ Hq) Hin) as [Hx Hs]. cbn [fst snd] in *. subst s.
    split; [apply scale_ge0; [lra|now apply bandwidth_pos]|apply scale_le; lia || lra].
  - intros J q1 q2 xi s HJ Hq Hin. cbn [fo_bank fo_j formulas1d] in *. fold (scale xi s).
    destruct (Z.eq_dec q1 1) as [->|Hq1].
    + exists xi, s. replace q2 with 1%Z in Hin by lia. split; [assumption|]. fold (scale xi s). lia.
    + destruct (anden_last J q1 _ HJ ltac:(lia) (anden_list_ok J q1 HJ ltac:(lia))) as ([xi' s'] & Ha & E).
      exists xi', s'. split; [assumption|]. fold (scale xi' s'). cbn [fst snd] in E. rewrite E.
      pose proof (anden_elem J q2 _ _ HJ ltac:(lia) (anden_list_ok J q2 HJ ltac:(lia)) Hin) as [Hx Hs].
      cbn [fst snd] in *. subst s. apply scale_le; lia || lra.
Qed.

(** * Closed form for Q = 1 *)
Lemma div_pow_le_inv x y u m n : 1 < u -> 0 < x -> x / u ^ m <= y -> (n <= m)%nat -> x / u ^ n <= y * u ^ (m - n).
Proof.
  intros Hu Hx H Hn. pose proof (u_pow_pos u n Hu). pose proof (u_pow_pos u (m - n) Hu). pose proof (u_pow_pos u m Hu).
  replace (x / u ^ n) with (x / u ^ m * u ^ (m - n)).
  - apply Rmult_le_compat_r; lra.
  - replace (u ^ m) with (u ^ n * u ^ (m - n)); [field; lra|]. rewrite <- pow_add. f_equal. lia.
Qed.
Lemma anden_Q1 J : (0 <= J)%Z ->
  anden J 1 sigma0 r_psi (map (fun k => (35 / 100 / 2 ^ k, rho 1 * (35 / 100 / 2 ^ k))) (seq 0 (S (Z.to_nat J)))).
Proof.
  intros HJ. pose proof (anden_list_ok J 1 HJ ltac:(lia)) as H.
  pose proof (anden_shape J 1 _ HJ ltac:(lia) H) as Hs. cbv zeta in Hs. rewrite xi_max_1, ratio_1 in Hs.
  pose proof (smin_pos J HJ) as S0. pose proof rho_1 as R1.
  destruct Hs as [[Hs _]|(k & Hk & [Hs1 Hs2] & Hi & E)]; [lra|].
  replace (S (Z.to_nat J)) with (S k).
  - replace (map _ (seq 0 (S k))) with (anden_list J 1 sigma0 r_psi); [assumption|].
    rewrite E. change (arith 1 (35 / 100 / 2 ^ k) (smin J)) with (@nil (R * R)). rewrite app_nil_r. unfold geo.
    apply map_ext. intros i. f_equal. field. apply pow_nonzero. lra.
  - f_equal. rewrite Z.mul_1_r in Hk. destruct (Nat.eq_dec k (Z.to_nat J)) as [->|Hne]; [reflexivity|exfalso].
    assert (P2 : smin J = 1 / 10 / 2 ^ Z.to_nat J).
    { unfold smin, sigma0. rewrite pow_powerRZ, Z2Nat.id by lia. reflexivity. }
    pose proof (pow_lt 2 k ltac:(lra)) as Pk.
    pose proof (u_pow_pos 2 (Z.to_nat J) ltac:(lra)) as PJ.
    assert (E2 : 2 ^ Z.to_nat J = 2 * 2 ^ k * 2 ^ (Z.to_nat J - k - 1)).
    { rewrite (tech_pow_Rmult 2 k), <- pow_add. f_equal. lia. }
    pose proof (pow_R1_Rle 2 (Z.to_nat J - k - 1) ltac:(lra)) as P1.
    assert (smin J * 2 <= 1 / 10 / 2 ^ k).
    { rewrite P2, E2. apply Rmult_le_reg_r with (10 * 2 ^ k * 2 ^ (Z.to_nat J - k - 1)); [nra|].
      field_simplify; lra || nra. }
    assert (1 / 10 / 2 ^ k < rho 1 * (35 / 100) / 2 ^ k).
    { apply Rmult_lt_compat_r; [now apply Rinv_0_lt_compat|lra]. }
    lra.
Qed.
Lemma scale_Q1 k : scale (35 / 100 / 2 ^ k) (rho 1 * (35 / 100 / 2 ^ k)) = Z.max (Z.of_nat k - 2) 0.
Proof.
  pose proof (pow_lt 2 k ltac:(lra)) as Pk. pose proof rho_1 as R1.
  assert (X : 0 < 35 / 100 / 2 ^ k) by (apply Rdiv_lt_0_compat; lra).
  assert (S : 0 < rho 1 * (35 / 100 / 2 ^ k)) by nra.
  assert (E : powerRZ 2 (Z.of_nat k) = 2 ^ k) by (now rewrite pow_powerRZ).
  assert (B : 1 / 2 ^ k < 35 / 100 / 2 ^ k + 5 * (rho 1 * (35 / 100 / 2 ^ k)) <= 2 / 2 ^ k).
  { replace (35 / 100 / 2 ^ k + 5 * (rho 1 * (35 / 100 / 2 ^ k))) with (35 / 100 * (1 + 5 * rho 1) / 2 ^ k) by (field; lra).
    split; [apply Rmult_lt_compat_r|apply Rmult_le_compat_r]; try (left; now apply Rinv_0_lt_compat);
      try (now apply Rinv_0_lt_compat); lra. }
  apply Z.le_antisymm.
  - apply Z.le_ngt. intros Hc. assert (Hm : (Z.max (Z.of_nat k - 2) 0 + 1 <= scale (35 / 100 / 2 ^ k) (rho 1 * (35 / 100 / 2 ^ k)))%Z) by lia.
    apply scale_spec in Hm; [|assumption..].
    assert (H1 : powerRZ 2 (- (Z.max (Z.of_nat k - 2) 0 + 1 + 1)) <= 1 / 4).
    { replace (1 / 4) with (powerRZ 2 (-2)) by (simpl; lra).
      rewrite !powerRZ_Rpower by lra. apply Rle_Rpower; [lra|]. apply IZR_le. lia. }
    assert (H2 : powerRZ 2 (- (Z.max (Z.of_nat k - 2) 0 + 1 + 1)) <= 1 / 2 ^ k).
    { replace (1 / 2 ^ k) with (powerRZ 2 (- Z.of_nat k)) by (rewrite powerRZ2_opp, E; lra).
      rewrite !powerRZ_Rpower by lra. apply Rle_Rpower; [lra|]. apply IZR_le. lia. }
    assert (powerRZ 2 (- (Z.max (Z.of_nat k - 2) 0 + 1 + 1)) <
        Rmin (35 / 100 / 2 ^ k + 5 * (rho 1 * (35 / 100 / 2 ^ k))) (1 / 2)) by (apply Rmin_glb_lt; lra).
    lra.
  - apply Z.max_lub; [|now apply scale_ge0]. apply scale_spec; [assumption..|].
    eapply Rle_trans; [apply Rmin_l|]. eapply Rle_trans; [apply B|]. right.
    replace (- (Z.of_nat k - 2 + 1))%Z with (1 + - Z.of_nat k)%Z by lia.
    rewrite powerRZ2_add, powerRZ2_opp, E. simpl. field. lra.
Qed.

(** * The pairs (1, 8): a first-order wavelet of lower frequency and smaller scale *)
Lemma ratio_8 : 109 / 100 < ratio 8 < 1091 / 1000.
Proof.
  pose proof (ratio_pow 8 ltac:(lia)) as H. pose proof (ratio_gt1 8 ltac:(lia)) as U. change (Z.to_nat 8) with 8%nat in H.
  split; apply Rnot_le_lt; intros Hc.
  - assert (ratio 8 ^ 8 <= (109 / 100) ^ 8) by (apply pow_incr; lra). lra.
  - assert ((1091 / 1000) ^ 8 <= ratio 8 ^ 8) by (apply pow_incr; lra). lra.
Qed.
Lemma rho_8 : 512 / 10000 < rho 8 < 532 / 10000.
Proof.
  pose proof ratio_8 as [U1 U2]. pose proof sqrt_ln2 as [S1 S2]. unfold rho.
  set (u := ratio 8) in *. set (s := sqrt (ln 2)) in *.
  assert (P : 0 < (u + 1) * s) by nra.
  replace ((u - 1) / (u + 1) / s) with ((u - 1) / ((u + 1) * s)) by (field; lra).
  assert (B1 : (u + 1) * s <= (u + 1) * (84 / 100)) by nra.
  assert (B2 : (u + 1) * (82 / 100) <= (u + 1) * s) by nra.
  split; apply Rmult_lt_reg_r with ((u + 1) * s); try assumption.
  - replace ((u - 1) / ((u + 1) * s) * ((u + 1) * s)) with (u - 1) by (field; lra). lra.
  - replace ((u - 1) / ((u + 1) * s) * ((u + 1) * s)) with (u - 1) by (field; lra). lra.
Qed.
Lemma bad_pair l : anden 4 8 sigma0 r_psi l ->
  exists a, In a l /\ 1 / 10 < fst a /\ (1 <= scale (fst a) (snd a))%Z.
Proof.
  intros H. pose proof (anden_shape 4 8 l ltac:(lia) ltac:(lia) H) as Hs. cbv zeta in Hs.
  pose proof (xi_max_lt 8 ltac:(lia)) as X. pose proof rho_8 as [R1 R2]. pose proof ratio_8 as [U1 U2].
  set (x0 := compute_xi_max 8) in *. set (u := ratio 8) in *. set (r := rho 8) in *.
  assert (Sm : smin 4 = 1 / 160) by (unfold smin, sigma0; simpl; lra). rewrite Sm in Hs.
  destruct Hs as [[Hs _]|(k & Hk & [Hs1 Hs2] & Hi & E)]; [nra|].
  pose proof (ratio_pow 8 ltac:(lia)) as U8. change (Z.to_nat 8) with 8%nat in U8. fold u in U8.
  assert (U10 : u ^ 10 = 2 * (u * u)) by (replace (u ^ 10) with (u ^ 8 * (u * u)) by ring; rewrite U8; ring).
  assert (U11 : u ^ 11 = 2 * (u * u * u)) by (replace (u ^ 11) with (u ^ 8 * (u * u * u)) by ring; rewrite U8; ring).
  assert (Sq : 11881 / 10000 < u * u < 11903 / 10000) by (split; nra).
  assert (Cu : 1295 / 1000 < u * u * u < 12987 / 10000) by (split; nra).
  assert (Hk11 : (11 <= k)%nat).
  { destruct (Nat.le_gt_cases 11 k) as [L|L]; [exact L|exfalso].
    pose proof (bound_later (r * x0) u k 10 ltac:(lra) ltac:(nra) ltac:(lia)) as B. rewrite U10 in B.
    assert (r * x0 / (2 * (u * u)) > 1 / 160 * u); [|lra].
    apply Rlt_gt. apply Rmult_lt_reg_r with (2 * (u * u)); [lra|].
    replace (r * x0 / (2 * (u * u)) * (2 * (u * u))) with (r * x0) by (field; lra). nra. }
  exists (x0 / u ^ 11, r * x0 / u ^ 11). split; [|cbn [fst snd]; rewrite U11].
  - rewrite E. apply in_or_app. left. unfold geo. apply in_map_iff. exists 11%nat. split; [reflexivity|]. apply in_seq. lia.
  - set (c := u * u * u) in *.
    assert (L : 1 / 10 < x0 / (2 * c)).
    { apply Rmult_lt_reg_r with (2 * c); [lra|]. replace (x0 / (2 * c) * (2 * c)) with x0 by (field; lra). lra. }
    split; [exact L|].
    replace (r * x0 / (2 * c)) with (r * (x0 / (2 * c))) by (field; lra).
    assert (UB : x0 / (2 * c) < 194 / 1000).
    { apply Rmult_lt_reg_r with (2 * c); [lra|]. replace (x0 / (2 * c) * (2 * c)) with x0 by (field; lra). lra. }
    apply scale_spec; [lra|nra|]. eapply Rle_trans; [apply Rmin_l|].
    replace (powerRZ 2 (- (1 + 1))) with (1 / 4) by (simpl; lra). nra.
Qed.
