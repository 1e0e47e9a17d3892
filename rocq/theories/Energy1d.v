(** The mean-square distance of two signals through the steps of the 1-D transform. *)
From Coq Require Import String Reals ZArith QArith List Bool Lia Lra Psatz.
From Coquelicot Require Import Complex.
From Verif Require Conv2d Dft3.
From Verif Require Import Base BaseProofs NdArray Backend Core1d Utils1d Utils1dProofs Frontend1d Spec1d Core1dProofs
  Frontend1dProofs NdProofs Rows1d FrontRows Factory1d FactoryProofs ComplexOps FilterBank1d FilterBank1dProofs Construct1d
  Shape1d PropFilters1d PropShapes1d Dft Conv1d Value1d Tabulated1d PropNumerics1d Invariance1d Norm1d Stability1d.
Import ListNotations.
Local Open Scope Z_scope.
Local Open Scope res_scope.

(** ** Sums of real numbers *)
Lemma rsum_cat a b f : rsum (a + b) f = (rsum a f + rsum b (fun i => f (a + i)%nat))%R.
Proof. induction b as [|b IH]; [rewrite Nat.add_0_r; cbn; lra|]. rewrite Nat.add_succ_r. cbn [rsum]. rewrite IH. lra. Qed.
Lemma rsum_scal n c f : rsum n (fun i => c * f i)%R = (c * rsum n f)%R.
Proof. induction n as [|n IH]; cbn [rsum]; [ring|]. rewrite IH. ring. Qed.
Lemma rsum_swap n m (f : nat -> nat -> R) : rsum n (fun i => rsum m (f i)) = rsum m (fun j => rsum n (fun i => f i j)).
Proof.
  induction n as [|n IH]; cbn [rsum].
  - rewrite rsum_const. ring.
  - rewrite IH. clear IH. induction m as [|m IH]; cbn [rsum]; [ring|]. rewrite <- IH. ring.
Qed.
(** Terms left out of a sum of non-negative terms only lower it. *)
Lemma rsum_more n m f : (forall i, 0 <= f i)%R -> (n <= m)%nat -> (rsum n f <= rsum m f)%R.
Proof.
  intros Hf H. replace m with (n + (m - n))%nat by lia. rewrite rsum_cat.
  pose proof (rsum_pos (m - n) (fun i => f (n + i)%nat) ltac:(intros; apply Hf)). lra.
Qed.
Lemma rsum_window a b n f : (forall i, 0 <= f i)%R -> (forall i, (n <= i)%nat -> f i = 0%R) -> (rsum b (fun i => f (a + i)%nat) <= rsum n f)%R.
Proof.
  intros Hf H0. apply Rle_trans with (rsum (a + b) f).
  - rewrite rsum_cat. pose proof (rsum_pos a f ltac:(intros; apply Hf)). lra.
  - destruct (Nat.le_ge_cases (a + b) n) as [H|H]; [now apply rsum_more|].
    replace (a + b)%nat with (n + (a + b - n))%nat by lia. rewrite rsum_cat.
    rewrite (rsum_ext (a + b - n) (fun i => f (n + i)%nat) (fun _ => 0%R)) by (intros; apply H0; lia). rewrite rsum_const. lra.
Qed.
Lemma rsum_every n k f : (forall i, 0 <= f i)%R -> (rsum (n / k) (fun u => f (k * u)%nat) <= rsum n f)%R.
Proof.
  intros Hf. destruct (Nat.eq_dec k 0) as [->|Hk]; [cbn; apply rsum_pos; intros; apply Hf|].
  apply Rle_trans with (rsum (k * (n / k)) f); [|apply rsum_more; [exact Hf|apply Nat.mul_div_le; lia]].
  generalize (n / k)%nat as q. induction q as [|q IH]; [rewrite Nat.mul_0_r; cbn; lra|].
  replace (k * S q)%nat with (k * q + S (k - 1))%nat by lia. rewrite rsum_cat. cbn [rsum].
  assert (F : forall m g, (forall i, 0 <= g i)%R -> (g 0%nat <= rsum m g + g m)%R).
  { intros m g Hg. destruct m as [|m]; [cbn; lra|]. pose proof (rsum_term (S m) g 0%nat ltac:(intros; apply Hg) ltac:(lia)). pose proof (Hg (S m)). lra. }
  pose proof (F (k - 1)%nat (fun i => f (k * q + i)%nat) ltac:(intros; apply Hf)) as H. cbv beta in H. rewrite Nat.add_0_r in H. lra.
Qed.
(** The Cauchy-Schwarz inequality with non-negative weights. *)
Lemma rsum_cauchy n (a b : nat -> R) : (forall i, (i < n)%nat -> 0 <= a i)%R ->
  (rsum n (fun i => a i * b i) ^ 2 <= rsum n a * rsum n (fun i => a i * b i ^ 2))%R.
Proof.
  induction n as [|n IH]; intros Ha; cbn [rsum]; [lra|].
  specialize (IH ltac:(intros; apply Ha; lia)).
  pose proof (rsum_pos n a ltac:(intros; apply Ha; lia)) as HA.
  pose proof (rsum_pos n (fun i => a i * b i ^ 2)%R ltac:(intros; apply Rmult_le_pos; [apply Ha; lia|apply pow2_ge_0])) as HC.
  specialize (Ha n ltac:(lia)).
  set (A := rsum n a) in *. set (B := rsum n (fun i => a i * b i)%R) in *. set (D := rsum n (fun i => a i * b i ^ 2)%R) in *.
  generalize (b n) as v. intros v.
  enough (H : (0 <= A * v ^ 2 - 2 * B * v + D)%R).
  { pose proof (Rmult_le_pos _ _ Ha H) as H'. 
    replace ((A + a n) * (D + a n * v ^ 2))%R with (A * D + a n * (A * v ^ 2 - 2 * B * v + D) + 2 * B * (a n * v) + (a n * v) ^ 2)%R by ring.
    replace ((B + a n * v) ^ 2)%R with (B ^ 2 + 2 * B * (a n * v) + (a n * v) ^ 2)%R by ring. lra. }
  destruct HA as [HA|HA].
  - apply Rmult_le_reg_l with A; [exact HA|]. rewrite Rmult_0_r.
    replace (A * (A * v ^ 2 - 2 * B * v + D))%R with ((A * v - B) ^ 2 + (A * D - B ^ 2))%R by ring.
    pose proof (pow2_ge_0 (A * v - B)). lra.
  - rewrite <- HA in *. assert (B ^ 2 = 0)%R by (pose proof (pow2_ge_0 B); lra).
    assert (B = 0)%R by nra. rewrite H0. lra.
Qed.

(** ** Young's inequality in mean square *)
Lemma l1_rsum h : l1 h = rsum (List.length h) (fun i => Cmod (at_ h i)).
Proof. unfold l1. now rewrite rsum_csum. Qed.
Lemma l1_pos h : (0 <= l1 h)%R.
Proof. rewrite l1_rsum. apply rsum_pos. intros; apply Cmod_ge_0. Qed.
Lemma rsum_reflect N (g : nat -> R) n : (0 < N)%nat -> rsum N (fun m => g (Z.to_nat ((n - Z.of_nat m) mod Z.of_nat N))) = rsum N g.
Proof.
  intros HN. apply RtoC_inj. rewrite <- !rsum_csum. exact (Conv2d.csum_reflect_Z N (fun i => RtoC (g i)) n HN).
Qed.
Lemma rsum_turn N (g : nat -> R) m : (0 < N)%nat -> rsum N (fun n => g (Z.to_nat ((Z.of_nat n - m) mod Z.of_nat N))) = rsum N g.
Proof.
  intros HN. apply RtoC_inj. rewrite <- !rsum_csum.
  exact (Dft3.csum_rot N N N HN HN HN N (fun i => RtoC (g i)) m HN).
Qed.
(** The sum of the squared moduli of the differences. *)
Definition dist2 (x y : list C) : R := rsum (List.length x) (fun u => (Cmod (at_ x u - at_ y u)%C ^ 2)%R).
Lemma cconv_dist2 x y h : (0 < List.length x)%nat -> List.length h = List.length x -> List.length y = List.length x ->
  (rsum (List.length x) (fun t => Cmod (cconv x h (Z.of_nat t) - cconv y h (Z.of_nat t))%C ^ 2) <= l1 h ^ 2 * dist2 x y)%R.
Proof.
  intros Hx Hh Hl. set (n := List.length x) in *.
  set (H := fun t m : nat => Cmod (at_ h (Z.to_nat ((Z.of_nat t - Z.of_nat m) mod Z.of_nat n)))).
  set (d := fun m => Cmod (at_ x m - at_ y m)%C).
  assert (E1 : forall t, rsum n (H t) = l1 h) by (intros t; rewrite l1_rsum, Hh; apply (rsum_reflect n (fun i => Cmod (at_ h i)) (Z.of_nat t) Hx)).
  assert (E2 : forall m, rsum n (fun t => H t m) = l1 h) by (intros m; rewrite l1_rsum, Hh; apply (rsum_turn n (fun i => Cmod (at_ h i)) (Z.of_nat m) Hx)).
  apply Rle_trans with (rsum n (fun t => l1 h * rsum n (fun m => H t m * d m ^ 2))%R).
  - apply rsum_le. intros t Ht. rewrite <- (E1 t).
    apply Rle_trans with (rsum n (fun m => H t m * d m)%R ^ 2)%R; [|apply rsum_cauchy; intros; apply Cmod_ge_0].
    apply pow_incr. split; [apply Cmod_ge_0|].
    replace (cconv x h (Z.of_nat t) - cconv y h (Z.of_nat t))%C
      with (csum n (fun m => (at_ x m - at_ y m) * at_ h (Z.to_nat ((Z.of_nat t - Z.of_nat m) mod Z.of_nat n)))%C).
    + eapply Rle_trans; [apply csum_Cmod|]. rewrite rsum_csum. cbn [fst RtoC]. right. apply rsum_ext. intros m _.
      rewrite Cmod_mult. apply Rmult_comm.
    + unfold cconv. rewrite Hl. fold n.
      assert (E : forall k f g, (csum k f - csum k g)%C = csum k (fun i => f i - g i)%C).
      { intros k f g. induction k as [|k IH]; cbn [csum]; [ring|]. rewrite <- IH. ring. }
      rewrite E. apply csum_ext. intros m _. ring.
  - right. rewrite rsum_scal, rsum_swap. unfold dist2. fold n.
    rewrite (rsum_ext _ _ (fun m => l1 h * d m ^ 2)%R).
    + rewrite rsum_scal. unfold d. ring.
    + intros m _. rewrite <- (E2 m), (rsum_ext _ _ (fun t => d m ^ 2 * H t m)%R) by (intros; ring). rewrite rsum_scal. ring.
Qed.

(** ** Closeness in mean square *)
Definition close2 (E : R) (x y : list C) : Prop := List.length y = List.length x /\ (dist2 x y <= E)%R.
Lemma dist2_pos x y : (0 <= dist2 x y)%R.
Proof. apply rsum_pos. intros; apply pow2_ge_0. Qed.
Lemma close2_sampled E x y w k (f : Z -> R) (g : Z -> R) :
  (0 < List.length x)%nat -> List.length w = List.length x -> close2 E x y ->
  (forall t, Rabs (f t - g t) <= Cmod (cconv x (idft w) t - cconv y (idft w) t)%C)%R ->
  (rsum (List.length x / k) (fun u => Cmod (RtoC (f (Z.of_nat (k * u))) - RtoC (g (Z.of_nat (k * u))))%C ^ 2) <= E * l1 (idft w) ^ 2)%R.
Proof.
  intros Hx Hw [Hl HE] Hfg.
  apply Rle_trans with (rsum (List.length x) (fun t => Cmod (cconv x (idft w) (Z.of_nat t) - cconv y (idft w) (Z.of_nat t))%C ^ 2)%R).
  - eapply Rle_trans; [|apply (rsum_every _ k (fun t => Cmod (cconv x (idft w) (Z.of_nat t) - cconv y (idft w) (Z.of_nat t))%C ^ 2)%R); intros; apply pow2_ge_0].
    apply rsum_le. intros u Hu. apply pow_incr. split; [apply Cmod_ge_0|]. rewrite <- RtoC_minus, Cmod_R. apply Hfg.
  - eapply Rle_trans; [apply cconv_dist2; rewrite ?idft_length; assumption|]. rewrite (Rmult_comm E).
    apply Rmult_le_compat_l; [apply pow2_ge_0|exact HE].
Qed.
Lemma close2_envelope E x y w k : (0 < List.length x)%nat -> List.length w = List.length x -> close2 E x y ->
  close2 (E * l1 (idft w) ^ 2) (sampled_envelope x w k) (sampled_envelope y w k).
Proof.
  intros Hx Hw Hc. pose proof (proj1 Hc) as Hl. split; [now rewrite !sampled_envelope_length, Hl|]. unfold dist2. rewrite sampled_envelope_length.
  eapply Rle_trans; [right|apply (close2_sampled E x y w k (fun t => Cmod (cconv x (idft w) t)) (fun t => Cmod (cconv y (idft w) t))); try assumption].
  - apply rsum_ext. intros u Hu. unfold sampled_envelope. rewrite !at_map_seq by (rewrite ?Hl; exact Hu). reflexivity.
  - intros t. apply Cmod_sub_abs.
Qed.
Lemma close2_lowpass E x y w k : (0 < List.length x)%nat -> List.length w = List.length x -> close2 E x y ->
  close2 (E * l1 (idft w) ^ 2) (sampled_lowpass x w k) (sampled_lowpass y w k).
Proof.
  intros Hx Hw Hc. pose proof (proj1 Hc) as Hl. split; [now rewrite !sampled_lowpass_length, Hl|]. unfold dist2. rewrite sampled_lowpass_length.
  eapply Rle_trans; [right|apply (close2_sampled E x y w k (fun t => Re (cconv x (idft w) t)) (fun t => Re (cconv y (idft w) t))); try assumption].
  - apply rsum_ext. intros u Hu. unfold sampled_lowpass. rewrite !at_map_seq by (rewrite ?Hl; exact Hu). reflexivity.
  - intros t. apply Re_sub_abs.
Qed.
(** Reflection repeats a sample at most three times. *)
Lemma rsum_rev' n f : rsum n (fun i => f (n - 1 - i)%nat) = rsum n f.
Proof.
  assert (F : forall k (g : nat -> R), rsum (S k) g = (g O + rsum k (fun i => g (S i)))%R).
  { intros k g. change (S k) with (1 + k)%nat. rewrite rsum_cat. cbn [rsum]. rewrite Rplus_0_l. reflexivity. }
  induction n as [|n IH]; [reflexivity|]. rewrite F. cbn [rsum]. rewrite <- IH.
  rewrite (rsum_ext n (fun i => f (S n - 1 - S i)%nat) (fun i => f (n - 1 - i)%nat)) by (intros; apply f_equal; lia).
  replace (S n - 1 - 0)%nat with n by lia. lra.
Qed.
Lemma close2_pad E l r n x y : (l < n)%nat -> (r < n)%nat -> List.length x = n -> close2 E x y ->
  close2 (3 * E) (pad_reflect_row complex_ops l r n x) (pad_reflect_row complex_ops l r n y).
Proof.
  intros Hl Hr Hn [Hlen Hc]. split; [now rewrite !pad_row_length|]. unfold dist2. rewrite pad_row_length.
  unfold dist2 in Hc. rewrite Hn in Hc. set (f := fun u => (Cmod (at_ x u - at_ y u)%C ^ 2)%R) in *.
  assert (Hf : forall u, (0 <= f u)%R) by (intros; apply pow2_ge_0).
  rewrite (rsum_ext _ _ (fun u => f (reflect_index n (Z.of_nat u - Z.of_nat l)))).
  2:{ intros u Hu. rewrite !at_pad by exact Hu. reflexivity. }
  rewrite rsum_cat, rsum_cat.
  assert (E1 : (rsum l (fun u => f (reflect_index n (Z.of_nat u - Z.of_nat l))) <= rsum n f)%R).
  { rewrite (rsum_ext l _ (fun u => f (1 + (l - 1 - u))%nat)).
    - rewrite (rsum_rev' l (fun i => f (1 + i)%nat)). apply Rle_trans with (rsum (1 + l) f); [|apply rsum_more; [exact Hf|lia]].
      rewrite (rsum_cat 1 l). cbn [rsum]. pose proof (Hf 0%nat). lra.
    - intros u Hu. f_equal. unfold reflect_index. destruct (Z.ltb_spec (Z.of_nat u - Z.of_nat l) 0); lia. }
  assert (E2 : (rsum n (fun i => f (reflect_index n (Z.of_nat (l + i) - Z.of_nat l))) = rsum n f)%R).
  { apply rsum_ext. intros u Hu. f_equal. unfold reflect_index. destruct (Z.ltb_spec (Z.of_nat (l + u) - Z.of_nat l) 0); [lia|].
    destruct (Z.ltb_spec (Z.of_nat (l + u) - Z.of_nat l) (Z.of_nat n)); lia. }
  assert (E3 : (rsum r (fun i => f (reflect_index n (Z.of_nat (l + n + i) - Z.of_nat l))) <= rsum n f)%R).
  { rewrite (rsum_ext r _ (fun u => f ((n - 1 - r) + (r - 1 - u))%nat)).
    - rewrite (rsum_rev' r (fun i => f ((n - 1 - r) + i)%nat)). apply Rle_trans with (rsum ((n - 1 - r) + r) f); [|apply rsum_more; [exact Hf|lia]].
      rewrite (rsum_cat (n - 1 - r) r). pose proof (rsum_pos (n - 1 - r) f ltac:(intros; apply Hf)). lra.
    - intros u Hu. f_equal. unfold reflect_index. destruct (Z.ltb_spec (Z.of_nat (l + n + u) - Z.of_nat l) 0); [lia|].
      destruct (Z.ltb_spec (Z.of_nat (l + n + u) - Z.of_nat l) (Z.of_nat n)); lia. }
  lra.
Qed.
Lemma close2_slice E a b x y : close2 E x y ->
  (rsum (b - a) (fun t => Cmod (at_ (slice a b x) t - at_ (slice a b y) t)%C ^ 2) <= E)%R.
Proof.
  intros [Hl Hc]. eapply Rle_trans; [|exact Hc].
  rewrite (rsum_ext (b - a) _ (fun t => (Cmod (at_ x (a + t) - at_ y (a + t))%C ^ 2)%R)) by (intros t Ht; unfold at_; now rewrite !nth_slice by exact Ht).
  apply (rsum_window a (b - a) (List.length x) (fun t => (Cmod (at_ x t - at_ y t)%C ^ 2)%R)).
  - intros; apply pow2_ge_0.
  - intros i Hi. rewrite !at_over by lia. replace (RtoC 0 - RtoC 0)%C with (RtoC 0) by ring. rewrite Cmod_0. ring.
Qed.
Lemma close2_sum E x y : close2 E x y ->
  (Cmod (csum (List.length x) (at_ x) - csum (List.length y) (at_ y))%C ^ 2 <= INR (List.length x) * E)%R.
Proof.
  intros [Hl Hc]. rewrite Hl.
  apply Rle_trans with (rsum (List.length x) (fun u => 1 * Cmod (at_ x u - at_ y u)%C)%R ^ 2)%R.
  - apply pow_incr. split; [apply Cmod_ge_0|].
    replace (csum (List.length x) (at_ x) - csum (List.length x) (at_ y))%C with (csum (List.length x) (fun u => at_ x u - at_ y u)%C).
    + eapply Rle_trans; [apply csum_Cmod|]. rewrite rsum_csum. cbn [fst RtoC]. right. apply rsum_ext. intros; ring.
    + generalize (List.length x) as n. induction n as [|n IH]; cbn [csum]; [ring|]. rewrite IH. ring.
  - eapply Rle_trans; [apply rsum_cauchy; intros; lra|]. rewrite rsum_const, Rmult_1_r. apply Rmult_le_compat_l; [apply pos_INR|].
    eapply Rle_trans; [right|exact Hc]. apply rsum_ext. intros; ring.
Qed.

(** ** Coefficients of one padded signal *)
Section Values.
Context {P : Type}.
Notation filter := (Core1d.filter (nd C) P).
Variables (phi : filter) (psi1s psi2s : list filter) (two : bool) (N : nat) (ls : Z) (al : bool).
Hypothesis (Ha : adm phi psi1s psi2s two N ls al).
Notation val := (value complex_ops phi psi1s psi2s N ls al).
Notation gain := (gain phi psi1s psi2s ls al).
Lemma value_close2 E x y key : List.length x = N -> close2 E x y -> valid_key psi1s psi2s two key ->
  close2 (E * gain key ^ 2) (val key x) (val key y).
Proof.
  intros Hx Hc Hk. pose proof (proj1 Hc) as Hl. assert (Hy : List.length y = N) by congruence.
  pose proof (adm_N _ _ _ _ _ _ _ Ha) as HN.
  destruct al eqn:Eal.
  - pose proof (value_local _ _ _ _ _ _ _ Ha _ Hx _ eq_refl Hk) as V.
    pose proof (value_local _ _ _ _ _ _ _ Ha _ Hy _ eq_refl Hk) as V'.
    destruct (adm_phi _ _ _ _ _ _ _ Ha eq_refl) as [Dl Hphi]. pose proof (level_length _ _ _ Hphi) as Lphi.
    destruct Hk as [|n1 f1 E1|n1 n2 f1 f2 H2 E1 E2 Hj].
    + rewrite V, V'. unfold gain. apply close2_lowpass; [lia|congruence|exact Hc].
    + rewrite (V f1 E1), (V' f1 E1). unfold gain. rewrite E1. unfold kk. cbv zeta.
      destruct (env1_spec _ _ _ _ _ _ _ Ha x Hx n1 f1 E1) as (S1 & L1 & K1 & D1 & B1 & P1).
      destruct (adm_psi1 _ _ _ _ _ _ _ Ha f1 (nth_error_In _ _ E1)) as (G1 & G2 & G3 & G4). specialize (G4 eq_refl).
      apply level_length in G2, G4. rewrite S1 in L1. unfold kk in L1, P1, G4.
      rewrite Rpow_mult_distr, <- Rmult_assoc. apply close2_lowpass; [rewrite L1; exact P1|congruence|]. apply close2_envelope; [lia|congruence|exact Hc].
    + rewrite (V f1 f2 E1 E2), (V' f1 f2 E1 E2). unfold gain. rewrite E1, E2. unfold kk. cbv zeta.
      destruct (env1_spec _ _ _ _ _ _ _ Ha x Hx n1 f1 E1) as (S1 & L1 & K1 & D1 & B1 & P1).
      destruct (env2_spec _ _ _ _ _ _ _ Ha x Hx n1 n2 f1 f2 H2 E1 E2 Hj) as (S2 & L2 & K2 & D2 & B2 & P2).
      destruct (adm_psi1 _ _ _ _ _ _ _ Ha f1 (nth_error_In _ _ E1)) as (_ & G2 & _ & _).
      destruct (adm_psi2 _ _ _ _ _ _ _ Ha H2 f1 f2 (nth_error_In _ _ E1) (nth_error_In _ _ E2) Hj) as (Q1 & _ & Q3). specialize (Q3 eq_refl).
      apply level_length in G2, Q1, Q3. rewrite S1 in L1. rewrite S2 in L2. unfold kk in L1, P1, Q1, Q3, L2, P2.
      rewrite !Rpow_mult_distr, <- !Rmult_assoc. apply close2_lowpass; [rewrite L2; exact P2|congruence|].
      apply close2_envelope; [rewrite L1; exact P1|congruence|]. apply close2_envelope; [lia|congruence|exact Hc].
  - pose proof (value_plain _ _ _ _ _ _ _ Ha _ Hx _ eq_refl Hk) as V.
    pose proof (value_plain _ _ _ _ _ _ _ Ha _ Hy _ eq_refl Hk) as V'.
    destruct Hk as [|n1 f1 E1|n1 n2 f1 f2 H2 E1 E2 Hj].
    + rewrite V, V'. unfold gain. now rewrite pow1, Rmult_1_r.
    + rewrite (V f1 E1), (V' f1 E1). unfold gain. rewrite E1. rewrite Rmult_1_r.
      destruct (adm_psi1 _ _ _ _ _ _ _ Ha f1 (nth_error_In _ _ E1)) as (_ & G2 & _). apply level_length in G2.
      apply close2_envelope; [lia|congruence|exact Hc].
    + rewrite (V f1 f2 E1 E2), (V' f1 f2 E1 E2). unfold gain. rewrite E1, E2. unfold kk. rewrite Rmult_1_r, Rpow_mult_distr, <- Rmult_assoc.
      destruct (env1_spec _ _ _ _ _ _ _ Ha x Hx n1 f1 E1) as (S1 & L1 & K1 & D1 & B1 & P1).
      destruct (adm_psi1 _ _ _ _ _ _ _ Ha f1 (nth_error_In _ _ E1)) as (_ & G2 & _ & _).
      destruct (adm_psi2 _ _ _ _ _ _ _ Ha H2 f1 f2 (nth_error_In _ _ E1) (nth_error_In _ _ E2) Hj) as (Q1 & _ & _).
      apply level_length in G2, Q1. rewrite S1 in L1. unfold kk in L1, P1, Q1.
      apply close2_envelope; [rewrite L1; exact P1|congruence|]. apply close2_envelope; [lia|congruence|exact Hc].
Qed.
End Values.
