(** The moments of the half Gaussian: the integral of r^k exp(-r^2/2) over the positive half-line. *)
From Coq Require Import Reals Arith Lia Lra Factorial.
From Coquelicot Require Import Coquelicot.
Local Open Scope R_scope.

(** State an equation in a normed module over R as one in R. *)
Ltac eqR := match goal with |- @eq _ ?a ?b => change (@eq R a b) end.
Definition gk (k : nat) (r : R) : R := pow r k * exp (- (1 / 2) * pow r 2).

Lemma smooth (f : R -> R) (x : R) : ex_derive f x -> continuous f x.
Proof. intros H. apply (ex_derive_continuous f x H). Qed.
Lemma integrable (f : R -> R) a b : (forall z : R, continuous f z) -> ex_RInt f a b.
Proof. intros H. apply (ex_RInt_continuous (V := R_CompleteNormedModule) f a b). intros z _. apply H. Qed.
Lemma int_unique (f : R -> R) (a b l : R) : is_RInt f a b l -> RInt f a b = l.
Proof. apply (is_RInt_unique (V := R_CompleteNormedModule)). Qed.
Lemma int_correct (f : R -> R) (a b : R) : ex_RInt f a b -> is_RInt f a b (RInt f a b).
Proof. apply (RInt_correct (V := R_CompleteNormedModule)). Qed.
Lemma gk_cont k (r : R) : continuous (gk k) r.
Proof.
  apply smooth. unfold gk. auto_derive. exact I.
Qed.
Lemma gk_int k a b : ex_RInt (gk k) a b.
Proof. apply integrable. intros z. apply gk_cont. Qed.

(** ** Decay *)
Lemma exp_ge_pow n y : (0 < n)%nat -> 0 <= y -> pow (y / INR n) n <= exp y.
Proof.
  intros Hn Hy. assert (H : 0 < INR n) by now apply lt_0_INR.
  replace (exp y) with (pow (exp (y / INR n)) n).
  - apply pow_incr. split; [apply Rdiv_le_0_compat; assumption|]. pose proof (exp_ineq1_le (y / INR n)). lra.
  - rewrite <- (Rpower_pow n (exp (y / INR n)) (exp_pos _)). unfold Rpower. rewrite ln_exp. f_equal. field. lra.
Qed.
Lemma gk_bound k t : 1 <= t -> 0 <= gk (S k) t <= pow (2 * INR (S k)) (S k) / t.
Proof.
  intros Ht. set (n := S k) in *. assert (Hn : (0 < n)%nat) by (unfold n; lia). assert (Hn' : 0 < INR n) by now apply lt_0_INR.
  assert (Hp : 0 < pow t n) by (apply pow_lt; lra).
  unfold gk. split; [apply Rmult_le_pos; [lra|left; apply exp_pos]|].
  assert (HE := exp_ge_pow n (1 / 2 * pow t 2) Hn ltac:(pose proof (pow2_ge_0 t); lra)).
  replace (- (1 / 2) * pow t 2) with (- (1 / 2 * pow t 2)) by ring. rewrite exp_Ropp.
  replace (1 / 2 * pow t 2 / INR n) with (pow t 2 * / (2 * INR n)) in HE by (field; lra).
  rewrite Rpow_mult_distr, <- pow_mult, pow_inv in HE by lra.
  set (K := pow (2 * INR n) n) in *. assert (HK : 0 < K) by (apply pow_lt; lra).
  assert (E2 : pow t (2 * n) = pow t n * pow t n) by (rewrite <- pow_add; f_equal; lia). rewrite E2 in HE.
  assert (Ht' : t <= pow t n) by (unfold n; rewrite <- (Rmult_1_r t) at 1; cbn [pow]; apply Rmult_le_compat_l; [lra|apply pow_R1_Rle; exact Ht]).
  assert (H1 : pow t n * / exp (1 / 2 * pow t 2) <= pow t n * / (pow t n * pow t n * / K)).
  { apply Rmult_le_compat_l; [lra|]. apply Rinv_le_contravar; [|exact HE]. apply Rmult_lt_0_compat; [now apply Rmult_lt_0_compat|now apply Rinv_0_lt_compat]. }
  eapply Rle_trans; [exact H1|]. replace (pow t n * / (pow t n * pow t n * / K)) with (K * / pow t n) by (field; lra).
  unfold Rdiv. apply Rmult_le_compat_l; [lra|]. apply Rinv_le_contravar; lra.
Qed.
Lemma gk_lim k : is_lim (gk (S k)) p_infty 0.
Proof.
  apply is_lim_le_le_loc with (f := fun _ => 0) (g := fun t => pow (2 * INR (S k)) (S k) / t).
  - exists 1. intros t Ht. apply gk_bound. lra.
  - apply is_lim_const.
  - replace (Finite 0) with (Rbar_div (pow (2 * INR (S k)) (S k)) p_infty) by (cbn; f_equal; ring).
    apply is_lim_div; [apply is_lim_const|apply is_lim_id|discriminate|].
    unfold ex_Rbar_div, ex_Rbar_mult. cbn. exact I.
Qed.

(** ** The recursion *)
Lemma moment_step k t : RInt (gk (S (S k))) 0 t = INR (S k) * RInt (gk k) 0 t - gk (S k) t.
Proof.
  assert (H : is_RInt (fun r => INR (S k) * gk k r - gk (S (S k)) r) 0 t (minus (gk (S k) t) (gk (S k) 0))).
  { apply (is_RInt_derive (V := R_CompleteNormedModule) (gk (S k))).
    - intros r _. unfold gk. auto_derive; [exact I|]. cbn [pow Nat.pred]. change (match k with O => 1 | S _ => INR k + 1 end) with (INR (S k)). field.
    - intros r _. apply (continuous_minus (fun r => INR (S k) * gk k r) (gk (S (S k)))); [|apply gk_cont].
      apply (continuous_scal_r (INR (S k)) (gk k)), gk_cont. }
  apply int_unique in H.
  assert (E : RInt (fun r => INR (S k) * gk k r - gk (S (S k)) r) 0 t = INR (S k) * RInt (gk k) 0 t - RInt (gk (S (S k))) 0 t).
  { apply int_unique. apply (is_RInt_minus (V := R_NormedModule) (fun r => INR (S k) * gk k r) (gk (S (S k)))).
    - apply (is_RInt_scal (V := R_NormedModule) (gk k)). apply int_correct, gk_int.
    - apply int_correct, gk_int. }
  rewrite E in H. unfold minus, plus, opp in H. cbn in H. assert (Z : gk (S k) 0 = 0) by (unfold gk; cbn [pow]; ring).
  change (RInt (gk (S (S k))) 0 t = INR (S k) * RInt (gk k) 0 t - gk (S k) t).
  change (INR (S k) * RInt (gk k) 0 t - RInt (gk (S (S k))) 0 t = gk (S k) t + - gk (S k) 0) in H. lra.
Qed.
Lemma moment_lim_step k (l : R) : is_lim (fun t => RInt (gk k) 0 t) p_infty l -> is_lim (fun t => RInt (gk (S (S k))) 0 t) p_infty (INR (S k) * l).
Proof.
  intros H. apply is_lim_ext with (f := fun t => INR (S k) * RInt (gk k) 0 t - gk (S k) t); [intros t; symmetry; apply moment_step|].
  replace (Finite (INR (S k) * l)) with (Finite (INR (S k) * l - 0)) by (f_equal; ring).
  apply (is_lim_minus' (fun t => INR (S k) * RInt (gk k) 0 t) (gk (S k))); [|apply gk_lim].
  apply (is_lim_scal_l (fun t => RInt (gk k) 0 t) (INR (S k)) p_infty l H).
Qed.
Lemma moment1 : is_lim (fun t => RInt (gk 1) 0 t) p_infty 1.
Proof.
  assert (E : forall t, RInt (gk 1) 0 t = 1 - gk 0 t).
  { intros t. apply int_unique. replace (1 - gk 0 t) with (minus (- gk 0 t) (- gk 0 0)).
    - apply (is_RInt_derive (V := R_CompleteNormedModule) (fun r => - gk 0 r)); [|intros; apply gk_cont]. intros r _. unfold gk. auto_derive; [exact I|]. cbn [pow]. field.
    - unfold minus, plus, opp, gk; cbn. replace (- (1 / 2) * (0 * (0 * 1))) with 0 by ring. rewrite exp_0. ring. }
  apply is_lim_ext with (f := fun t => 1 - gk 0 t); [intros; now rewrite E|].
  replace (Finite 1) with (Finite (1 - 0)) by (f_equal; ring). apply is_lim_minus'; [apply is_lim_const|].
  apply is_lim_le_le_loc with (f := fun _ => 0) (g := gk 1); [|apply is_lim_const|apply gk_lim].
  exists 1. intros t Ht. unfold gk. cbn [pow]. pose proof (exp_pos (- (1 / 2) * (t * (t * 1)))). nra.
Qed.

(** ** The Gaussian integral *)
Definition hh (t x : R) : R := exp (- (1 / 2) * pow t 2 * (1 + pow x 2)) / (1 + pow x 2).
Lemma onex x : 0 < 1 + pow x 2.
Proof. pose proof (pow2_ge_0 x). lra. Qed.
Lemma hh_derive t x : is_derive (fun t => hh t x) t (- t * exp (- (1 / 2) * pow t 2 * (1 + pow x 2))).
Proof. pose proof (onex x). unfold hh. auto_derive; [lra|]. cbn [pow] in *. field. lra. Qed.
Lemma hh_cont t (x : R) : continuous (hh t) x.
Proof. pose proof (onex x). apply smooth. unfold hh. auto_derive. cbn [pow] in *. lra. Qed.
Lemma hh_int t a b : ex_RInt (hh t) a b.
Proof. apply integrable. intros z. apply hh_cont. Qed.
Definition HH (t : R) : R := RInt (hh t) 0 1.

Lemma int_scal (f : R -> R) (k a b : R) : ex_RInt f a b -> RInt (fun x => k * f x) a b = k * RInt f a b.
Proof. intros H. apply (RInt_scal (V := R_CompleteNormedModule) f a b k H). Qed.
Lemma int_lin (f : R -> R) (u a b : R) : (forall z : R, continuous f z) -> RInt (fun y => u * f (u * y)) a b = RInt f (u * a) (u * b).
Proof.
  intros H. pose proof (RInt_comp_lin (V := R_CompleteNormedModule) f u 0 a b (integrable _ _ _ H)) as E.
  rewrite !Rplus_0_r in E. rewrite <- E. apply RInt_ext. intros y _. rewrite Rplus_0_r. reflexivity.
Qed.
Lemma inner t : RInt (fun x => - t * exp (- (1 / 2) * pow t 2 * (1 + pow x 2))) 0 1 = - (gk 0 t * RInt (gk 0) 0 t).
Proof.
  pose proof (int_lin (gk 0) t 0 1 (gk_cont 0)) as E. rewrite Rmult_0_r, Rmult_1_r in E. rewrite <- E.
  rewrite <- Ropp_mult_distr_l_reverse. rewrite <- int_scal.
  - apply RInt_ext. intros x _. unfold gk. cbn [pow].
    replace (- (1 / 2) * (t * (t * 1)) * (1 + x * (x * 1))) with (- (1 / 2) * (t * (t * 1)) + - (1 / 2) * (t * x * (t * x * 1))) by ring.
    rewrite exp_plus. eqR. ring.
  - apply integrable. intros z. apply smooth. unfold gk. auto_derive. exact I.
Qed.
Lemma HH_derive t : is_derive HH t (- (gk 0 t * RInt (gk 0) 0 t)).
Proof.
  rewrite <- inner. unfold HH.
  replace (RInt (fun x => - t * exp (- (1 / 2) * pow t 2 * (1 + pow x 2))) 0 1) with (RInt (fun x => Derive (fun u => hh u x) t) 0 1).
  - apply (is_derive_RInt_param hh).
    + apply filter_forall. intros u x _. eexists. apply hh_derive.
    + intros x _. apply continuity_2d_pt_ext with (f := fun u v => - u * exp (- (1 / 2) * pow u 2 * (1 + pow v 2))).
      { intros u v. symmetry. apply is_derive_unique, hh_derive. }
      apply continuity_2d_pt_mult; [apply continuity_2d_pt_opp, continuity_2d_pt_id1|].
      apply (continuity_1d_2d_pt_comp exp (fun u v => - (1 / 2) * pow u 2 * (1 + pow v 2))).
      * apply derivable_continuous_pt, derivable_pt_exp.
      * apply continuity_2d_pt_mult.
        -- apply continuity_2d_pt_mult; [apply continuity_2d_pt_const|]. apply (continuity_1d_2d_pt_comp (fun z => pow z 2) (fun u _ => u)); [|apply continuity_2d_pt_id1].
           apply derivable_continuous_pt, derivable_pt_pow.
        -- apply continuity_2d_pt_plus; [apply continuity_2d_pt_const|]. apply (continuity_1d_2d_pt_comp (fun z => pow z 2) (fun _ v => v)); [|apply continuity_2d_pt_id2].
           apply derivable_continuous_pt, derivable_pt_pow.
    + apply filter_forall. intros u. apply hh_int.
  - apply RInt_ext. intros x _. apply is_derive_unique, hh_derive.
Qed.
Lemma HH_0 : HH 0 = PI / 4.
Proof.
  unfold HH. rewrite <- atan_1. replace (atan 1) with (minus (atan 1) (atan 0)) by (rewrite atan_0; unfold minus, plus, opp; cbn; ring).
  apply int_unique. apply (is_RInt_ext (fun x => / (1 + Rsqr x))).
  - intros x _. pose proof (onex x). unfold hh, Rsqr. cbn [pow]. replace (- (1 / 2) * (0 * (0 * 1)) * (1 + x * (x * 1))) with 0 by ring. rewrite exp_0. unfold Rdiv. rewrite Rmult_1_l. f_equal. ring.
  - apply (is_RInt_derive (V := R_CompleteNormedModule) atan); [intros; apply is_derive_atan|]. intros x _. apply smooth. pose proof (Rle_0_sqr x). unfold Rsqr in *. auto_derive. lra.
Qed.
Lemma square_sum t : 0 <= t -> pow (RInt (gk 0) 0 t) 2 + 2 * HH t = PI / 2.
Proof.
  intros Ht. set (F := fun t => pow (RInt (gk 0) 0 t) 2 + 2 * HH t). assert (F0 : F 0 = PI / 2).
  { unfold F. rewrite RInt_point, HH_0. unfold zero; cbn. field. }
  rewrite <- F0. change (F t = F 0). destruct (Rle_lt_or_eq_dec _ _ Ht) as [H|H]; [|now rewrite H].
  symmetry. apply eq_is_derive; [|exact H]. intros u _.
  assert (DG : is_derive (fun t => RInt (gk 0) 0 t) u (gk 0 u)).
  { apply (is_derive_RInt (gk 0) _ 0); [|apply gk_cont]. apply filter_forall. intros b. apply int_correct, gk_int. }
  unfold F. replace (@zero R_NormedModule) with (plus (INR 2 * gk 0 u * pow (RInt (gk 0) 0 u) (Nat.pred 2)) (scal 2 (- (gk 0 u * RInt (gk 0) 0 u)))).
  - apply (is_derive_plus (fun t => pow (RInt (gk 0) 0 t) 2) (fun t => 2 * HH t)).
    + apply (is_derive_pow (fun t => RInt (gk 0) 0 t)). exact DG.
    + apply (is_derive_scal HH). apply HH_derive.
  - unfold plus, scal, zero; cbn. unfold mult; cbn. ring.
Qed.
Lemma HH_bound t : 0 <= HH t <= gk 0 t.
Proof.
  unfold HH. split.
  - apply RInt_ge_0; [lra|apply hh_int|]. intros x _. unfold hh. apply Rdiv_le_0_compat; [left; apply exp_pos|apply onex].
  - replace (gk 0 t) with (RInt (fun _ => gk 0 t) 0 1) by (rewrite (RInt_const (V := R_CompleteNormedModule)); unfold scal; cbn; unfold mult; cbn; ring).
    apply RInt_le; [lra|apply hh_int|apply ex_RInt_const|]. intros x _. unfold hh, gk. cbn [pow]. pose proof (onex x) as H1. pose proof (pow2_ge_0 x) as H0. cbn [pow] in H1, H0.
    rewrite Rmult_1_l. apply Rle_trans with (exp (- (1 / 2) * (t * (t * 1)) * (1 + x * (x * 1)))).
    + unfold Rdiv. rewrite <- (Rmult_1_r (exp _)) at 2. apply Rmult_le_compat_l; [left; apply exp_pos|]. apply Rle_trans with (/ 1); [apply Rinv_le_contravar; lra|lra].
    + destruct (Req_dec (- (1 / 2) * (t * (t * 1)) * (1 + x * (x * 1))) (- (1 / 2) * (t * (t * 1)))) as [E|E]; [rewrite E; lra|].
      left. apply exp_increasing. pose proof (pow2_ge_0 t) as Ht. cbn [pow] in Ht. nra.
Qed.
Lemma gk0_lim : is_lim (gk 0) p_infty 0.
Proof.
  apply is_lim_le_le_loc with (f := fun _ => 0) (g := gk 1); [|apply is_lim_const|apply gk_lim].
  exists 1. intros t Ht. unfold gk. cbn [pow]. pose proof (exp_pos (- (1 / 2) * (t * (t * 1)))). nra.
Qed.
Lemma moment0 : is_lim (fun t => RInt (gk 0) 0 t) p_infty (sqrt (PI / 2)).
Proof.
  apply is_lim_ext_loc with (f := fun t => sqrt (PI / 2 - 2 * HH t)).
  - exists 0. intros t Ht. rewrite <- (square_sum t) by lra. replace (pow (RInt (gk 0) 0 t) 2 + 2 * HH t - 2 * HH t) with (pow (RInt (gk 0) 0 t) 2) by ring.
    apply sqrt_pow2. apply RInt_ge_0; [lra|apply gk_int|]. intros x _. unfold gk. cbn [pow]. rewrite Rmult_1_l. left; apply exp_pos.
  - apply (is_lim_comp_continuous (fun t => PI / 2 - 2 * HH t) sqrt p_infty (PI / 2)).
    + replace (Finite (PI / 2)) with (Finite (PI / 2 - 2 * 0)) by (f_equal; ring). apply is_lim_minus'; [apply is_lim_const|].
      apply (is_lim_scal_l HH 2 p_infty 0). apply is_lim_le_le_loc with (f := fun _ => 0) (g := gk 0); [exists 0; intros; apply HH_bound|apply is_lim_const|apply gk0_lim].
    + apply continuous_sqrt.
Qed.

(** ** All the moments *)
Fixpoint moment (k : nat) : R := match k with O => sqrt (PI / 2) | 1%nat => 1 | S (S k as k1) => INR k1 * moment k end.
Lemma moment_lim k : is_lim (fun t => RInt (gk k) 0 t) p_infty (moment k).
Proof.
  enough (is_lim (fun t => RInt (gk k) 0 t) p_infty (moment k) /\ is_lim (fun t => RInt (gk (S k)) 0 t) p_infty (moment (S k))) by tauto.
  induction k as [|k [H1 H2]]; [split; [apply moment0|apply moment1]|]. split; [exact H2|].
  change (moment (S (S k))) with (INR (S k) * moment k). now apply moment_lim_step.
Qed.
