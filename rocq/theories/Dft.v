(** Theory of the discrete Fourier transform of ComplexOps.v: roots of unity, inversion, convolution,
    subsampling. *)
From Coq Require Import Reals ZArith List Lia Lra Arith.
From Coquelicot Require Import Coquelicot.
From Verif Require Import NdArray ComplexOps.
Import ListNotations.
Local Open Scope C_scope.

Lemma C_ext (a b : C) : fst a = fst b -> snd a = snd b -> a = b.
Proof. destruct a, b; cbn; congruence. Qed.

(** ** Sums *)
Lemma csum_ext n (f g : nat -> C) : (forall i, (i < n)%nat -> f i = g i) -> csum n f = csum n g.
Proof. induction n as [|n IH]; intros H; cbn; [reflexivity|]. rewrite IH, (H n) by (auto with arith). reflexivity. Qed.
Lemma csum_0 n (f : nat -> C) : (forall i, (i < n)%nat -> f i = 0) -> csum n f = 0.
Proof. intros H. induction n as [|n IH]; cbn; [reflexivity|]. rewrite IH, H by auto with arith. ring. Qed.
Lemma csum_plus n f g : csum n (fun i => f i + g i) = csum n f + csum n g.
Proof. induction n as [|n IH]; cbn; [ring|]. rewrite IH. ring. Qed.
Lemma csum_scal n c f : csum n (fun i => c * f i) = c * csum n f.
Proof. induction n as [|n IH]; cbn; [ring|]. rewrite IH. ring. Qed.
Lemma csum_scal_r n c f : csum n (fun i => f i * c) = csum n f * c.
Proof. induction n as [|n IH]; cbn; [ring|]. rewrite IH. ring. Qed.
Lemma csum_swap n m f : csum n (fun i => csum m (fun j => f i j)) = csum m (fun j => csum n (fun i => f i j)).
Proof.
  induction n as [|n IH]; cbn.
  - symmetry. now apply csum_0.
  - rewrite IH. now rewrite <- csum_plus.
Qed.
Lemma csum_app n m f : csum (n + m) f = csum n f + csum m (fun i => f (n + i)%nat).
Proof.
  induction m as [|m IH]; [rewrite Nat.add_0_r; cbn; ring|]. rewrite Nat.add_succ_r. cbn. rewrite IH. ring.
Qed.
Lemma csum_mul k m f : csum (k * m) f = csum k (fun r => csum m (fun i => f (r * m + i)%nat)).
Proof.
  induction k as [|k IH]; [reflexivity|]. replace (S k * m)%nat with (k * m + m)%nat by lia.
  rewrite csum_app, IH. reflexivity.
Qed.
Lemma csum_first n (f : nat -> C) : csum (S n) f = f 0%nat + csum n (fun i => f (S i)).
Proof. change (S n) with (1 + n)%nat. rewrite csum_app. cbn. ring. Qed.
Lemma csum_single n (f : nat -> C) i : (i < n)%nat -> (forall j, (j < n)%nat -> j <> i -> f j = 0) -> csum n f = f i.
Proof.
  intros Hi H. induction n as [|n IH]; [lia|]. cbn. destruct (Nat.eq_dec i n) as [->|Hn].
  - rewrite csum_0; [ring|]. intros j Hj. apply H; lia.
  - rewrite IH by (try lia; intros; apply H; lia). rewrite (H n) by lia. ring.
Qed.
Lemma csum_fold n f : csum n f = fold_right Cplus 0 (map f (seq 0 n)).
Proof.
  assert (G : forall l a, fold_right Cplus a l = fold_right Cplus 0 l + a).
  { induction l as [|b l IH]; intros a; cbn; [ring|]. rewrite IH. ring. }
  induction n as [|n IH]; [reflexivity|]. rewrite seq_S, map_app, fold_right_app. cbn [map fold_right csum].
  rewrite G, IH. cbn [Nat.add]. ring.
Qed.
Lemma csum_conj n f : Cconj (csum n f) = csum n (fun i => Cconj (f i)).
Proof. induction n as [|n IH]; cbn; [apply C_ext; cbn; lra|]. rewrite <- IH. apply C_ext; cbn; lra. Qed.
Lemma csum_Cmod n f : (Cmod (csum n f) <= fst (csum n (fun i => RtoC (Cmod (f i)))))%R.
Proof.
  induction n as [|n IH]; cbn; [rewrite Cmod_0; lra|]. eapply Rle_trans; [apply Cmod_triangle|]. lra.
Qed.

(** ** Roots of unity *)
Lemma cis_add a b : cis (a + b) = cis a * cis b.
Proof. unfold cis. apply C_ext; cbn; [apply cos_plus|rewrite sin_plus; lra]. Qed.
Lemma cis_0 : cis 0 = 1.
Proof. unfold cis. now rewrite cos_0, sin_0. Qed.
Lemma cis_2PI_Z k : cis (2 * PI * IZR k) = 1.
Proof.
  assert (G : forall n : nat, cis (2 * PI * INR n) = 1).
  { induction n as [|n IH]; [cbn [INR]; rewrite Rmult_0_r; apply cis_0|].
    rewrite S_INR. replace (2 * PI * (INR n + 1))%R with (2 * PI * INR n + 2 * PI)%R by ring.
    rewrite cis_add, IH. unfold cis. rewrite cos_2PI, sin_2PI. apply C_ext; cbn; lra. }
  destruct (Z_le_gt_dec 0 k) as [H|H].
  - rewrite <- (Z2Nat.id k) by assumption. rewrite <- INR_IZR_INZ. apply G.
  - assert (E : cis (2 * PI * IZR k) * cis (2 * PI * IZR (- k)) = 1).
    { rewrite <- cis_add, opp_IZR. replace (2 * PI * IZR k + 2 * PI * - IZR k)%R with 0%R by ring. apply cis_0. }
    assert (E2 : cis (2 * PI * IZR (- k)) = 1).
    { rewrite <- (Z2Nat.id (- k)) by lia. rewrite <- INR_IZR_INZ. apply G. }
    rewrite E2 in E. rewrite <- E. ring.
Qed.

Section Root.
Variable N : nat.
Hypothesis HN : (0 < N)%nat.

Lemma INR_N : (0 < INR N)%R.
Proof. apply lt_0_INR. exact HN. Qed.
Lemma INR_N_C : RtoC (INR N) <> 0.
Proof. intros E. apply RtoC_inj in E. pose proof INR_N. lra. Qed.

Lemma root_add a b : root N (a + b) = root N a * root N b.
Proof. unfold root. rewrite <- cis_add. f_equal. rewrite plus_IZR. pose proof INR_N. field. lra. Qed.
Lemma root_0 : root N 0 = 1.
Proof. unfold root. replace (2 * PI * 0 / INR N)%R with 0%R; [apply cis_0|]. pose proof INR_N. field. lra. Qed.
Lemma root_N q : root N (Z.of_nat N * q) = 1.
Proof.
  unfold root. rewrite mult_IZR, <- INR_IZR_INZ.
  replace (2 * PI * (INR N * IZR q) / INR N)%R with (2 * PI * IZR q)%R; [apply cis_2PI_Z|].
  pose proof INR_N. field. lra.
Qed.
Lemma root_opp a : root N (- a) = Cconj (root N a).
Proof.
  unfold root, cis. rewrite opp_IZR. replace (2 * PI * - IZR a / INR N)%R with (- (2 * PI * IZR a / INR N))%R.
  - rewrite cos_neg, sin_neg. reflexivity.
  - pose proof INR_N. field. lra.
Qed.
Lemma root_mod a : root N (a mod Z.of_nat N) = root N a.
Proof.
  rewrite (Z.div_mod a (Z.of_nat N)) at 2 by lia. rewrite root_add, root_N. ring.
Qed.
Lemma root_congr a b : (a mod Z.of_nat N = b mod Z.of_nat N)%Z -> root N a = root N b.
Proof. intros E. now rewrite <- root_mod, E, root_mod. Qed.
Lemma Cmod_root a : Cmod (root N a) = 1%R.
Proof.
  unfold root, cis, Cmod. cbn [fst snd]. pose proof (sin2_cos2 (2 * PI * IZR a / INR N)) as H. unfold Rsqr in H.
  replace (cos _ ^ 2 + sin _ ^ 2)%R with 1%R by (simpl; lra). apply sqrt_1.
Qed.

Lemma root_neq_1 a : (0 < a < Z.of_nat N)%Z -> root N a <> 1.
Proof.
  intros Ha E. unfold root, cis in E. injection E; intros _ Ec.
  set (t := (PI * IZR a / INR N)%R). pose proof INR_N as P0. pose proof PI_RGT_0 as P1.
  assert (Et : (2 * PI * IZR a / INR N)%R = (2 * t)%R) by (unfold t; field; lra).
  rewrite Et, cos_2a_sin in Ec.
  assert (A : (0 < IZR a)%R) by (apply IZR_lt; lia).
  assert (B : (IZR a < INR N)%R) by (rewrite INR_IZR_INZ; apply IZR_lt; lia).
  assert (Ht : (0 < t < PI)%R).
  { unfold t. split; [apply Rdiv_lt_0_compat; nra|]. apply Rmult_lt_reg_r with (INR N); [exact P0|].
    unfold Rdiv. rewrite Rmult_assoc, Rinv_l by lra. nra. }
  pose proof (sin_gt_0 t (proj1 Ht) (proj2 Ht)). nra.
Qed.

Lemma root_pow a : forall n : nat, root N (a * Z.of_nat (S n)) = root N (a * Z.of_nat n) * root N a.
Proof. intros n. rewrite <- root_add. f_equal. lia. Qed.

(** Orthogonality of the characters. *)
Lemma root_sum a : csum N (fun n => root N (a * Z.of_nat n)) =
  if Z.eqb (a mod Z.of_nat N) 0 then RtoC (INR N) else 0.
Proof.
  destruct (Z.eqb_spec (a mod Z.of_nat N) 0) as [E|E].
  - rewrite (csum_ext N _ (fun _ => 1)).
    + clear. induction N as [|n IH]; [reflexivity|]. cbn [csum]. rewrite IH, S_INR, RtoC_plus. reflexivity.
    + intros n _. rewrite (root_congr _ 0); [apply root_0|]. rewrite Z.mul_mod, E by lia. reflexivity.
  - assert (Hne : root N a <> 1).
    { rewrite <- root_mod. apply root_neq_1. pose proof (Z.mod_pos_bound a (Z.of_nat N) ltac:(lia)). lia. }
    assert (G : forall M, (root N a - 1) * csum M (fun n => root N (a * Z.of_nat n)) = root N (a * Z.of_nat M) - 1).
    { induction M as [|M IH]; cbn [csum].
      - replace (a * Z.of_nat 0)%Z with 0%Z by lia. rewrite root_0. ring.
      - rewrite root_pow. replace ((root N a - 1) * (csum M (fun n => root N (a * Z.of_nat n)) + root N (a * Z.of_nat M)))
          with ((root N a - 1) * csum M (fun n => root N (a * Z.of_nat n)) + (root N a - 1) * root N (a * Z.of_nat M)) by ring.
        rewrite IH. ring. }
    specialize (G N). rewrite (Z.mul_comm a), root_N in G.
    assert (G2 : (root N a - 1) * csum N (fun n => root N (a * Z.of_nat n)) = 0) by (rewrite G; ring).
    assert (Hd : root N a - 1 <> 0).
    { intros K. apply Hne. replace (root N a) with ((root N a - 1) + 1) by ring. rewrite K. ring. }
    replace (csum N (fun n => root N (a * Z.of_nat n))) with
      (/ (root N a - 1) * ((root N a - 1) * csum N (fun n => root N (a * Z.of_nat n)))) by (field; exact Hd).
    rewrite G2. ring.
Qed.
Lemma root_sum' a : csum N (fun n => root N (Z.of_nat n * a)) = if Z.eqb (a mod Z.of_nat N) 0 then RtoC (INR N) else 0.
Proof. rewrite <- root_sum. apply csum_ext. intros. f_equal. lia. Qed.

(** ** Periodicity *)
Lemma dft_at_congr x a b : (a mod Z.of_nat N = b mod Z.of_nat N)%Z -> dft_at N x a = dft_at N x b.
Proof.
  intros E. unfold dft_at. apply csum_ext. intros n _. f_equal. apply root_congr.
  rewrite <- !Z.mul_opp_l. rewrite Z.mul_mod, (Z.mul_mod (- b)) by lia. f_equal. f_equal.
  destruct (Z.eq_dec (a mod Z.of_nat N) 0) as [Z0|Z0].
  - rewrite !Z.mod_opp_l_z; congruence || lia.
  - rewrite !Z.mod_opp_l_nz; congruence || lia.
Qed.
Lemma idft_at_congr x a b : (a mod Z.of_nat N = b mod Z.of_nat N)%Z -> idft_at N x a = idft_at N x b.
Proof.
  intros E. unfold idft_at. f_equal. apply csum_ext. intros k _. f_equal. apply root_congr.
  rewrite Z.mul_mod, E, <- Z.mul_mod by lia. reflexivity.
Qed.
Lemma idft_at_mod x a : idft_at N x (a mod Z.of_nat N) = idft_at N x a.
Proof. apply idft_at_congr. now rewrite Z.mod_mod by lia. Qed.
Lemma dft_at_ext (x y : nat -> C) k : (forall n, (n < N)%nat -> x n = y n) -> dft_at N x k = dft_at N y k.
Proof. intros H. unfold dft_at. apply csum_ext. intros n Hn. now rewrite H. Qed.
Lemma idft_at_ext (x y : nat -> C) k : (forall n, (n < N)%nat -> x n = y n) -> idft_at N x k = idft_at N y k.
Proof. intros H. unfold idft_at. f_equal. apply csum_ext. intros n Hn. now rewrite H. Qed.

(** ** Inversion *)
Lemma idft_dft (x : nat -> C) (n : nat) : (n < N)%nat -> idft_at N (fun k => dft_at N x (Z.of_nat k)) (Z.of_nat n) = x n.
Proof.
  intros Hn. unfold idft_at, dft_at.
  rewrite (csum_ext N _ (fun k => csum N (fun m => x m * root N (Z.of_nat k * (Z.of_nat n - Z.of_nat m))))).
  2:{ intros k _. rewrite <- csum_scal_r. apply csum_ext. intros m _. rewrite <- Cmult_assoc, <- root_add. f_equal. f_equal. lia. }
  rewrite csum_swap.
  rewrite (csum_ext N _ (fun m => x m * (if Z.eqb ((Z.of_nat n - Z.of_nat m) mod Z.of_nat N) 0 then RtoC (INR N) else 0))).
  2:{ intros m _. rewrite csum_scal, root_sum'. reflexivity. }
  rewrite (csum_single N _ n Hn).
  - rewrite Z.sub_diag, Z.mod_0_l by lia. cbn [Z.eqb]. field. exact INR_N_C.
  - intros m Hm Hne. destruct (Z.eqb_spec ((Z.of_nat n - Z.of_nat m) mod Z.of_nat N) 0) as [E|E]; [|ring].
    exfalso. apply Z.mod_divide in E; [|lia]. destruct E as [q Hq].
    assert (q = 0)%Z by nia. lia.
Qed.
Lemma dft_idft (x : nat -> C) (k : nat) : (k < N)%nat -> dft_at N (fun n => idft_at N x (Z.of_nat n)) (Z.of_nat k) = x k.
Proof.
  intros Hk. unfold idft_at, dft_at.
  rewrite (csum_ext N _ (fun n => csum N (fun m => / RtoC (INR N) * (x m * root N (Z.of_nat n * (Z.of_nat m - Z.of_nat k)))))).
  2:{ intros n _. rewrite csum_scal. unfold Cdiv. rewrite <- Cmult_assoc.
      rewrite <- (csum_scal_r N _ (fun m => x m * root N (Z.of_nat m * Z.of_nat n))), <- csum_scal. apply csum_ext. intros m _.
      replace (Z.of_nat n * (Z.of_nat m - Z.of_nat k))%Z with (Z.of_nat m * Z.of_nat n + - (Z.of_nat k * Z.of_nat n))%Z by lia.
      rewrite root_add. ring. }
  rewrite csum_swap.
  rewrite (csum_ext N _ (fun m => / RtoC (INR N) * x m * (if Z.eqb ((Z.of_nat m - Z.of_nat k) mod Z.of_nat N) 0 then RtoC (INR N) else 0))).
  2:{ intros m _. rewrite csum_scal, csum_scal, root_sum'. ring. }
  rewrite (csum_single N _ k Hk).
  - rewrite Z.sub_diag, Z.mod_0_l by lia. cbn [Z.eqb]. field. exact INR_N_C.
  - intros m Hm Hne. destruct (Z.eqb_spec ((Z.of_nat m - Z.of_nat k) mod Z.of_nat N) 0) as [E|E]; [|ring].
    exfalso. apply Z.mod_divide in E; [|lia]. destruct E as [q Hq].
    assert (q = 0)%Z by nia. lia.
Qed.

(** ** Convolution *)
Lemma convolution (x w : nat -> C) n :
  idft_at N (fun k => dft_at N x (Z.of_nat k) * w k) n =
  csum N (fun m => x m * idft_at N w (n - Z.of_nat m)).
Proof.
  unfold idft_at at 1. unfold dft_at.
  rewrite (csum_ext N _ (fun k => csum N (fun m => x m * (w k * root N (Z.of_nat k * (n - Z.of_nat m)))))).
  2:{ intros k _. rewrite <- Cmult_assoc, <- csum_scal_r. apply csum_ext. intros m _.
      replace (Z.of_nat k * (n - Z.of_nat m))%Z with (- (Z.of_nat k * Z.of_nat m) + Z.of_nat k * n)%Z by lia.
      rewrite root_add. ring. }
  rewrite csum_swap. unfold Cdiv. rewrite <- csum_scal_r. apply csum_ext. intros m _.
  rewrite csum_scal. unfold idft_at. unfold Cdiv. ring.
Qed.

(** A sum over a full period does not depend on the starting point. *)
Lemma csum_shift (f : Z -> C) (d : Z) : (forall a b, (a mod Z.of_nat N = b mod Z.of_nat N)%Z -> f a = f b) ->
  csum N (fun i => f (Z.of_nat i + d)%Z) = csum N (fun i => f (Z.of_nat i)).
Proof.
  intros Hf.
  assert (Step : forall e, csum N (fun i => f (Z.of_nat i + (e + 1))%Z) = csum N (fun i => f (Z.of_nat i + e)%Z)).
  { intros e. destruct N as [|n] eqn:En; [reflexivity|]. rewrite (csum_first n (fun i => f (Z.of_nat i + e)%Z)). cbn [csum].
    rewrite (csum_ext n _ (fun i => f (Z.of_nat (S i) + e)%Z)) by (intros; f_equal; lia).
    cbn [Z.of_nat]. rewrite (Hf (Z.of_nat n + (e + 1))%Z (0 + e)%Z).
    - ring.
    - replace (Z.of_nat n + (e + 1))%Z with (e + 1 * Z.of_nat (S n))%Z by lia. rewrite Z_mod_plus_full. f_equal. }
  assert (Pos : forall k : nat, csum N (fun i => f (Z.of_nat i + Z.of_nat k)%Z) = csum N (fun i => f (Z.of_nat i))).
  { induction k as [|k IH]; [apply csum_ext; intros; f_equal; lia|]. rewrite <- IH, <- (Step (Z.of_nat k)). apply csum_ext. intros; f_equal; lia. }
  rewrite <- (Pos (Z.to_nat (d mod Z.of_nat N))). apply csum_ext. intros i _. apply Hf.
  rewrite Z2Nat.id by (apply Z.mod_pos_bound; lia). rewrite Z.add_mod_idemp_r by lia. reflexivity.
Qed.
End Root.

(** ** Subsampling *)
Lemma root_scale k m a : (0 < k)%nat -> (0 < m)%nat -> root (k * m) (Z.of_nat k * a) = root m a.
Proof.
  intros Hk Hm. unfold root. f_equal. rewrite mult_IZR, <- INR_IZR_INZ, mult_INR.
  pose proof (INR_N k Hk). pose proof (INR_N m Hm). field. lra.
Qed.

(** Mean over the aliases, then inverse transform: decimation. *)
Lemma subsample_idft k m X u : (0 < k)%nat -> (0 < m)%nat ->
  idft_at m (fun i => csum k (fun r => X (r * m + i)%nat) / RtoC (INR k)) u = idft_at (k * m) X (Z.of_nat k * u).
Proof.
  intros Hk Hm. unfold idft_at. rewrite csum_mul. rewrite csum_swap.
  rewrite (csum_ext m (fun i => csum k (fun r => X (r * m + i)%nat) / RtoC (INR k) * root m (Z.of_nat i * u))
     (fun i => / RtoC (INR k) * csum k (fun r => X (r * m + i)%nat * root (k * m) (Z.of_nat (r * m + i) * (Z.of_nat k * u))))).
  - rewrite csum_scal. rewrite mult_INR, RtoC_mult. pose proof (INR_N_C k Hk). pose proof (INR_N_C m Hm). field. tauto.
  - intros i _. unfold Cdiv.
    rewrite (csum_ext k (fun r => X (r * m + i)%nat * root (k * m) (Z.of_nat (r * m + i) * (Z.of_nat k * u))) (fun r => X (r * m + i)%nat * root m (Z.of_nat i * u))).
    + rewrite csum_scal_r. ring.
    + intros r _. f_equal. replace (Z.of_nat (r * m + i) * (Z.of_nat k * u))%Z with (Z.of_nat k * (Z.of_nat (r * m + i) * u))%Z by lia.
      rewrite root_scale by assumption. apply root_congr; [assumption|].
      replace (Z.of_nat (r * m + i) * u)%Z with (Z.of_nat i * u + (Z.of_nat r * u) * Z.of_nat m)%Z by nia. apply Z_mod_plus_full.
Qed.

(** Transform of a decimated signal: mean over the aliases. *)
Lemma dft_decimate k m x i : (0 < k)%nat -> (0 < m)%nat ->
  dft_at m (fun u => x (k * u)%nat) (Z.of_nat i) =
  csum k (fun r => dft_at (k * m) x (Z.of_nat (r * m + i))) / RtoC (INR k).
Proof.
  intros Hk Hm. unfold dft_at. rewrite csum_swap.
  rewrite (csum_ext (k * m) _ (fun n => x n * root (k * m) (- (Z.of_nat i * Z.of_nat n)) *
     (if Z.eqb ((- Z.of_nat n) mod Z.of_nat k) 0 then RtoC (INR k) else 0))).
  2:{ intros n _. rewrite <- root_sum by assumption. rewrite <- csum_scal. apply csum_ext. intros r _.
      rewrite <- (root_scale m k) by assumption. rewrite (Nat.mul_comm m k), <- Cmult_assoc, <- root_add by nia. f_equal. f_equal. lia. }
  rewrite (Nat.mul_comm k m), csum_mul. unfold Cdiv. rewrite <- csum_scal_r. apply csum_ext. intros u _.
  rewrite (csum_single k _ 0%nat Hk).
  - rewrite Nat.add_0_r. replace ((- Z.of_nat (u * k)) mod Z.of_nat k)%Z with 0%Z.
    2:{ replace (- Z.of_nat (u * k))%Z with (- Z.of_nat u * Z.of_nat k)%Z by lia. symmetry. apply Z_mod_mult. }
    cbn [Z.eqb]. rewrite (Nat.mul_comm k u). rewrite (Nat.mul_comm m k).
    replace (- (Z.of_nat i * Z.of_nat (u * k)))%Z with (Z.of_nat k * (- (Z.of_nat i * Z.of_nat u)))%Z by lia.
    rewrite root_scale by assumption. field. now apply INR_N_C.
  - intros j Hj Hne. destruct (Z.eqb_spec ((- Z.of_nat (u * k + j)) mod Z.of_nat k) 0) as [E|E]; [|ring].
    exfalso. apply Z.mod_divide in E; [|lia]. destruct E as [q Hq].
    assert (Hj2 : (Z.of_nat j = (- q - Z.of_nat u) * Z.of_nat k)%Z) by nia.
    destruct (Z_le_gt_dec (- q - Z.of_nat u) 0); nia.
Qed.

(** ** Lists *)
Lemma at_map (f : nat -> C) (l : list nat) i d : (i < length l)%nat -> at_ (map f l) i = f (nth i l d).
Proof.
  intros H. unfold at_. rewrite (nth_indep _ (RtoC 0) (f d)) by (rewrite map_length; exact H). apply map_nth.
Qed.
Lemma at_map_seq (f : nat -> C) n i : (i < n)%nat -> at_ (map f (seq 0 n)) i = f i.
Proof. intros H. rewrite (at_map f _ i 0%nat) by (rewrite seq_length; exact H). rewrite seq_nth by exact H. reflexivity. Qed.
Lemma dft_length l : length (dft l) = length l.
Proof. unfold dft. now rewrite map_length, seq_length. Qed.
Lemma idft_length l : length (idft l) = length l.
Proof. unfold idft. now rewrite map_length, seq_length. Qed.
Lemma at_dft l k : (k < length l)%nat -> at_ (dft l) k = dft_at (length l) (at_ l) (Z.of_nat k).
Proof. intros H. unfold dft. now rewrite at_map_seq. Qed.
Lemma at_idft l n : (n < length l)%nat -> at_ (idft l) n = idft_at (length l) (at_ l) (Z.of_nat n).
Proof. intros H. unfold idft. now rewrite at_map_seq. Qed.
Lemma at_idft_mod l a : (0 < length l)%nat -> at_ (idft l) (Z.to_nat (a mod Z.of_nat (length l))) = idft_at (length l) (at_ l) a.
Proof.
  intros H. pose proof (Z.mod_pos_bound a (Z.of_nat (length l)) ltac:(lia)).
  rewrite at_idft by lia. rewrite Z2Nat.id by lia. now apply idft_at_mod.
Qed.
Lemma list_ext (l l' : list C) : length l = length l' -> (forall i, (i < length l)%nat -> at_ l i = at_ l' i) -> l = l'.
Proof. intros E H. apply nth_ext with (d := RtoC 0) (d' := RtoC 0); [exact E|exact H]. Qed.
Lemma idft_dft_list l : idft (dft l) = l.
Proof.
  apply list_ext; [now rewrite idft_length, dft_length|]. rewrite idft_length, dft_length. intros i Hi.
  rewrite at_idft by (rewrite dft_length; exact Hi). rewrite dft_length.
  rewrite <- (idft_dft (length l) ltac:(lia) (at_ l) i Hi). apply idft_at_ext. intros k Hk. now apply at_dft.
Qed.
Lemma dft_idft_list l : dft (idft l) = l.
Proof.
  apply list_ext; [now rewrite dft_length, idft_length|]. rewrite dft_length, idft_length. intros i Hi.
  rewrite at_dft by (rewrite idft_length; exact Hi). rewrite idft_length.
  rewrite <- (dft_idft (length l) ltac:(lia) (at_ l) i Hi). apply dft_at_ext. intros k Hk. now apply at_idft.
Qed.
