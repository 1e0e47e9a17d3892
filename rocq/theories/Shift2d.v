(** How far the low-pass filter of the 2-D transform lets a translation of its input through: Parseval's identity for images, and
    a bound on the transform of the periodised Gaussian times the distance of a root of unity to 1. *)
From Coq Require Import String Reals ZArith List Bool Arith Lia Lra Psatz.
From Coquelicot Require Import Complex.
From Verif Require Import FilterBank1d Stability1d GaussSum.
From Verif Require Import Base BaseProofs NdArray Backend NdProofs ComplexOps Dft Construct1d Utils1dProofs Rows1d StackProofs Backend2d Core2d FilterBank2d
  Frontend2d Images Rows2d Pad2d Eval2d Dft2 Value2d Conv2d Keys2d Path2d Transpose2d PropShapes2d PropValues2d Invariance1d Norm1d Energy1d Shift1d
  PropStability2d PropEnergy2d.
Import ListNotations.
Local Open Scope R_scope.

(** ** Parseval's identity for images *)
Lemma parseval2 M N (X : nat -> nat -> C) : (0 < M)%nat -> (0 < N)%nat ->
  rsum M (fun u => rsum N (fun v => Cmod (idft2_at M N X (Z.of_nat u) (Z.of_nat v)) ^ 2)) = rsum M (fun a => rsum N (fun b => Cmod (X a b) ^ 2)) / (INR M * INR N).
Proof.
  intros HM HN. pose proof (INR_N M HM). pose proof (INR_N N HN). rewrite rsum_swap.
  rewrite (rsum_ext N _ (fun v => rsum M (fun a => Cmod (idft_at N (X a) (Z.of_nat v)) ^ 2) / INR M)).
  2:{ intros v _. exact (parseval M (fun a => idft_at N (X a) (Z.of_nat v)) HM). }
  rewrite rsum_div, rsum_swap, (rsum_ext M _ (fun a => rsum N (fun b => Cmod (X a b) ^ 2) / INR N)).
  - rewrite rsum_div. field. lra.
  - intros a _. now apply parseval.
Qed.
Lemma energy_dft N (x : nat -> C) : (0 < N)%nat -> rsum N (fun k => Cmod (dft_at N x (Z.of_nat k)) ^ 2) = INR N * rsum N (fun n => Cmod (x n) ^ 2).
Proof.
  intros HN. pose proof (INR_N N HN). pose proof (parseval N (fun k => dft_at N x (Z.of_nat k)) HN) as H1.
  rewrite (rsum_ext N _ (fun n => Cmod (x n) ^ 2)) in H1 by (intros n Hn; now rewrite idft_dft). rewrite H1. field. lra.
Qed.
(** The energy of an image. *)
Definition nrg2 (M N : nat) (x : list C) : R := rsum M (fun a => rsum N (fun b => Cmod (px N x a b) ^ 2)).
Lemma parseval2_dft M N x : (0 < M)%nat -> (0 < N)%nat ->
  rsum M (fun a => rsum N (fun b => Cmod (dft2_at M N (px N x) (Z.of_nat a) (Z.of_nat b)) ^ 2)) = INR M * INR N * nrg2 M N x.
Proof.
  intros HM HN. rewrite rsum_swap. rewrite (rsum_ext N _ (fun b => INR M * rsum M (fun a => Cmod (dft_at N (px N x a) (Z.of_nat b)) ^ 2))).
  2:{ intros b _. exact (energy_dft M (fun a => dft_at N (px N x a) (Z.of_nat b)) HM). }
  rewrite rsum_scal, rsum_swap, (rsum_ext M _ (fun a => INR N * rsum N (fun b => Cmod (px N x a b) ^ 2))); [rewrite rsum_scal; unfold nrg2; ring|].
  intros a _. now apply energy_dft.
Qed.
Lemma idft_shift N (X : nat -> C) n d : (0 < N)%nat -> idft_at N X (n - d) = idft_at N (fun k => X k * root N (Z.of_nat k * - d))%C n.
Proof.
  intros HN. unfold idft_at. f_equal. apply csum_ext. intros k _.
  replace (Z.of_nat k * (n - d))%Z with (Z.of_nat k * n + Z.of_nat k * - d)%Z by lia. rewrite root_add by exact HN. ring.
Qed.
Lemma idft_scal N (X : nat -> C) c n : (idft_at N X n * c)%C = idft_at N (fun k => X k * c)%C n.
Proof.
  unfold idft_at, Cdiv. rewrite (csum_ext N (fun k => X k * c * root N (Z.of_nat k * n))%C (fun k => X k * root N (Z.of_nat k * n) * c)%C) by (intros; ring).
  rewrite csum_scal_r. ring.
Qed.
Lemma idft2_shift M N X u v d e : (0 < M)%nat -> (0 < N)%nat ->
  idft2_at M N X (u - d) (v - e) = idft2_at M N (fun a b => X a b * (root M (Z.of_nat a * - d) * root N (Z.of_nat b * - e)))%C u v.
Proof.
  intros HM HN. unfold idft2_at. rewrite idft_shift by exact HM. apply idft_at_ext. intros a _.
  rewrite idft_shift by exact HN. rewrite idft_scal. apply idft_at_ext. intros b _. ring.
Qed.
Lemma idft_minus N (X Y : nat -> C) n : (idft_at N X n - idft_at N Y n)%C = idft_at N (fun k => X k - Y k)%C n.
Proof.
  unfold idft_at, Cdiv. match goal with |- (?a * ?c - ?b * ?c)%C = _ => replace (a * c - b * c)%C with ((a - b) * c)%C by ring end.
  rewrite csum_minus. f_equal. apply csum_ext. intros k _. ring.
Qed.
Lemma idft2_minus M N X Y u v : (idft2_at M N X u v - idft2_at M N Y u v)%C = idft2_at M N (fun a b => X a b - Y a b)%C u v.
Proof. unfold idft2_at. rewrite idft_minus. apply idft_at_ext. intros a _. apply idft_minus. Qed.
Lemma conj_minus_1 z : (Cconj z - 1)%C = Cconj (z - 1)%C.
Proof. apply C_ext; cbn; ring. Qed.
(** The change of a filtered image when its input is shifted. *)
Lemma shift_energy2 M N x w d e B : (0 < M)%nat -> (0 < N)%nat ->
  (forall a b, (a < M)%nat -> (b < N)%nat -> Cmod (px N w a b) * Cmod (root M (Z.of_nat a * d) * root N (Z.of_nat b * e) - 1)%C <= B) ->
  rsum M (fun u => rsum N (fun v =>
    Cmod (conv2 M N (rot2 M N d e x) (idft2 M N w) (Z.of_nat u) (Z.of_nat v) - conv2 M N x (idft2 M N w) (Z.of_nat u) (Z.of_nat v))%C ^ 2)) <= B ^ 2 * nrg2 M N x.
Proof.
  intros HM HN HB. pose proof (INR_N M HM) as RM. pose proof (INR_N N HN) as RN.
  set (X := fun a b => dft2_at M N (px N x) (Z.of_nat a) (Z.of_nat b)).
  set (Y := fun a b => (X a b * (px N w a b * (root M (Z.of_nat a * - d) * root N (Z.of_nat b * - e) - 1)))%C).
  rewrite (rsum_ext M _ (fun u => rsum N (fun v => Cmod (idft2_at M N Y (Z.of_nat u) (Z.of_nat v)) ^ 2))).
  2:{ intros u _. apply rsum_ext. intros v _. do 2 f_equal. rewrite conv2_rot, <- !idft2_product, idft2_shift, idft2_minus by assumption.
      apply idft2_at_ext. intros a b _ _. unfold Y, X. ring. }
  rewrite parseval2 by assumption. apply Rcomplements.Rle_div_l; [nra|].
  replace (B ^ 2 * nrg2 M N x * (INR M * INR N)) with (B ^ 2 * (INR M * INR N * nrg2 M N x)) by ring. rewrite <- parseval2_dft, <- rsum2_scal by assumption.
  apply rsum2_le. intros a b Ha Hb. unfold Y. fold (X a b). rewrite Cmod_mult, Rpow_mult_distr, Rmult_comm. apply Rmult_le_compat_r; [apply pow2_ge_0|].
  apply pow_incr. split; [apply Cmod_ge_0|]. rewrite Cmod_mult. eapply Rle_trans; [right|apply (HB a b Ha Hb)]. f_equal.
  replace (Z.of_nat a * - d)%Z with (- (Z.of_nat a * d))%Z by lia. replace (Z.of_nat b * - e)%Z with (- (Z.of_nat b * e))%Z by lia.
  rewrite !root_opp by assumption. rewrite <- conj_mult.
  rewrite conj_minus_1.
  apply Cmod_conj.
Qed.

(** ** Roots of unity *)
Lemma root_steps N k (n : nat) : (0 < N)%nat -> Cmod (root N (k * Z.of_nat n) - 1)%C <= INR n * Cmod (root N k - 1)%C.
Proof.
  intros HN. induction n as [|n IH].
  - cbn [INR]. replace (k * Z.of_nat 0)%Z with 0%Z by lia. rewrite root_0 by exact HN. replace (1 - 1)%C with (RtoC 0) by ring. rewrite Cmod_0. lra.
  - rewrite root_pow, S_INR by exact HN.
    replace (root N (k * Z.of_nat n) * root N k - 1)%C with (root N (k * Z.of_nat n) * (root N k - 1) + (root N (k * Z.of_nat n) - 1))%C by ring.
    eapply Rle_trans; [apply Cmod_triangle|]. rewrite Cmod_mult, Cmod_root. lra.
Qed.
Lemma root_multiple N k d : (0 < N)%nat -> Cmod (root N (k * d) - 1)%C <= Rabs (IZR d) * Cmod (root N k - 1)%C.
Proof.
  intros HN. destruct (Z_le_gt_dec 0 d) as [H|H].
  - rewrite <- (Z2Nat.id d) by exact H. rewrite <- INR_IZR_INZ, (Rabs_pos_eq (INR _)) by apply pos_INR. now apply root_steps.
  - replace d with (- Z.of_nat (Z.to_nat (- d)))%Z by lia. rewrite opp_IZR, Rabs_Ropp, <- INR_IZR_INZ, (Rabs_pos_eq (INR _)) by apply pos_INR.
    rewrite Z.mul_opp_r, root_opp by exact HN.
    rewrite conj_minus_1.
    rewrite Cmod_conj. now apply root_steps.
Qed.
Lemma root_product M N a b : (0 < M)%nat -> (0 < N)%nat -> Cmod (root M a * root N b - 1)%C <= Cmod (root M a - 1)%C + Cmod (root N b - 1)%C.
Proof.
  intros HM HN. replace (root M a * root N b - 1)%C with (root M a * (root N b - 1) + (root M a - 1))%C by ring.
  eapply Rle_trans; [apply Cmod_triangle|]. rewrite Cmod_mult, Cmod_root. lra.
Qed.
(** The circular variation of a sequence bounds its transform away from frequency zero. *)
Definition variation (N : nat) (A : nat -> R) : R := rsum N (fun n => Rabs (A (S n mod N)%nat - A n)).
Lemma dft_variation N (A : nat -> R) k : (0 < N)%nat -> Cmod (dft_at N (fun n => RtoC (A n)) k) * Cmod (root N k - 1)%C <= variation N A.
Proof.
  intros HN. rewrite <- Cmod_mult.
  assert (E : (dft_at N (fun n => RtoC (A n)) k * (root N k - 1))%C = csum N (fun n => RtoC (A (S n mod N)%nat - A n) * root N (- (k * Z.of_nat n)))%C).
  { unfold dft_at. 
    set (F := fun z : Z => (RtoC (A (Z.to_nat (z mod Z.of_nat N))) * root N (- (k * (z - 1))))%C).
    assert (E1 : csum N (fun i => F (Z.of_nat i + 1)%Z) = csum N (fun i => F (Z.of_nat i))).
    { apply csum_shift; [exact HN|]. intros a b Hab. unfold F. rewrite Hab. f_equal. apply root_congr; [exact HN|].
      replace (- (k * (a - 1)))%Z with (k - k * a)%Z by lia. replace (- (k * (b - 1)))%Z with (k - k * b)%Z by lia.
      now rewrite Zminus_mod, Zmult_mod, Hab, <- Zmult_mod, <- Zminus_mod. }
    unfold Cminus. rewrite Cmult_plus_distr_l, <- csum_scal_r.
    rewrite (csum_ext N _ (fun i => F (Z.of_nat i))).
    - rewrite <- E1. replace (csum N (fun n => RtoC (A n) * root N (- (k * Z.of_nat n))) * - (1))%C with (- csum N (fun n => RtoC (A n) * root N (- (k * Z.of_nat n))))%C by ring.
      rewrite csum_sub. apply csum_ext. intros n Hn. unfold F.
      replace (Z.of_nat n + 1 - 1)%Z with (Z.of_nat n) by lia. replace (Z.of_nat n + 1)%Z with (Z.of_nat (S n)) by lia.
      rewrite <- Nat2Z.inj_mod, Nat2Z.id, RtoC_minus. ring.
    - intros n Hn. unfold F. rewrite Z.mod_small, Nat2Z.id by lia.
      replace (- (k * (Z.of_nat n - 1)))%Z with (- (k * Z.of_nat n) + k)%Z by lia. rewrite root_add by exact HN. ring. }
  rewrite E. eapply Rle_trans; [apply csum_Cmod|]. rewrite rsum_csum. cbn [fst RtoC]. right. apply rsum_ext. intros n _.
  rewrite Cmod_mult, Cmod_root, Cmod_R by exact HN. ring.
Qed.
Lemma dft_sum N (A : nat -> R) k : (0 < N)%nat -> (forall n, 0 <= A n) -> Cmod (dft_at N (fun n => RtoC (A n)) k) <= rsum N A.
Proof.
  intros HN HA. unfold dft_at. eapply Rle_trans; [apply csum_Cmod|]. rewrite rsum_csum. cbn [fst RtoC]. right. apply rsum_ext. intros n _.
  rewrite Cmod_mult, Cmod_root, Cmod_R, Rabs_pos_eq by (exact HN || apply HA). ring.
Qed.

(** ** The sampled Gaussian *)
Definition bell (sigma : R) (z : Z) : R := exp (- (IZR z ^ 2) / (2 * sigma ^ 2)).
Definition wrapped (sigma : R) (N n : nat) : R := rsum 5 (fun i => bell sigma (Z.of_nat (i * N + n) - 2 * Z.of_nat N)).
Lemma rsum_sub n (f g : nat -> R) : rsum n f - rsum n g = rsum n (fun i => f i - g i).
Proof. induction n as [|n IH]; cbn [rsum]; [ring|]. rewrite <- IH. ring. Qed.
Lemma rsum_abs n (f : nat -> R) : Rabs (rsum n f) <= rsum n (fun i => Rabs (f i)).
Proof. induction n as [|n IH]; cbn [rsum]; [rewrite Rabs_R0; lra|]. eapply Rle_trans; [apply Rabs_triang|]. lra. Qed.
Section Bell.
Variable sigma : R.
Hypothesis Hs : 0 < sigma.
Lemma bell_pos z : 0 < bell sigma z. Proof. apply exp_pos. Qed.
Lemma bell_0 : bell sigma 0 = 1.
Proof. unfold bell. rewrite <- exp_0. apply f_equal. field. lra. Qed.
Lemma bell_abs z : bell sigma z = bell sigma (Z.abs z).
Proof. unfold bell. rewrite abs_IZR, pow2_abs. reflexivity. Qed.
Lemma bell_mono a b : (Z.abs a <= Z.abs b)%Z -> bell sigma b <= bell sigma a.
Proof.
  intros H. rewrite (bell_abs a), (bell_abs b). apply exp_mono. unfold Rdiv. apply Rmult_le_compat_r; [left; apply Rinv_0_lt_compat; nra|].
  apply Ropp_le_contravar. apply pow_incr. split; [apply IZR_le; lia|now apply IZR_le].
Qed.
Lemma rsum_rise n (f : nat -> R) : (forall i, (i < n)%nat -> f i <= f (S i)) -> rsum n (fun i => Rabs (f (S i) - f i)) = f n - f O.
Proof.
  induction n as [|n IH]; intros H; cbn [rsum]; [ring|]. rewrite IH by (intros; apply H; lia). rewrite Rabs_pos_eq; [ring|]. specialize (H n ltac:(lia)). lra.
Qed.
Lemma rsum_fall n (f : nat -> R) : (forall i, (i < n)%nat -> f (S i) <= f i) -> rsum n (fun i => Rabs (f (S i) - f i)) = f O - f n.
Proof.
  induction n as [|n IH]; intros H; cbn [rsum]; [ring|]. rewrite IH by (intros; apply H; lia). rewrite Rabs_left1; [ring|]. specialize (H n ltac:(lia)). lra.
Qed.
Lemma wrapped_pos N n : 0 <= wrapped sigma N n.
Proof. apply rsum_pos. intros. left. apply bell_pos. Qed.
Lemma wrapped_variation N : (0 < N)%nat -> variation N (wrapped sigma N) <= 2.
Proof.
  intros HN. set (f := fun m : nat => bell sigma (Z.of_nat m - 2 * Z.of_nat N)).
  assert (Hf : rsum (5 * N) (fun m => Rabs (f (S m) - f m)) = 2 * f (2 * N)%nat - f O - f (5 * N)%nat).
  { replace (5 * N)%nat with (2 * N + 3 * N)%nat at 1 by lia. rewrite rsum_cat, rsum_rise.
    - rewrite (rsum_ext (3 * N) _ (fun i => Rabs (f (2 * N + S i)%nat - f (2 * N + i)%nat))) by (intros; now rewrite Nat.add_succ_r).
      rewrite (rsum_fall (3 * N) (fun i => f (2 * N + i)%nat)).
      + rewrite Nat.add_0_r. replace (2 * N + 3 * N)%nat with (5 * N)%nat by lia. ring.
      + intros i Hi. apply bell_mono. lia.
    - intros i Hi. apply bell_mono. lia. }
  assert (F2 : f (2 * N)%nat = 1) by (unfold f; replace (Z.of_nat (2 * N) - 2 * Z.of_nat N)%Z with 0%Z by lia; apply bell_0).
  assert (F5 : f (5 * N)%nat <= f O) by (apply bell_mono; lia). assert (P5 : 0 < f (5 * N)%nat) by apply bell_pos.
  enough (variation N (wrapped sigma N) <= rsum (5 * N) (fun m => Rabs (f (S m) - f m)) + (f O - f (5 * N)%nat)) by lra.
  assert (G : forall m, Rabs (rsum 5 (fun i => f (S (i * N + m))) - wrapped sigma N m) <= rsum 5 (fun i => Rabs (f (S (i * N + m)) - f (i * N + m)%nat))).
  { intros m. unfold wrapped. rewrite rsum_sub. apply rsum_abs. }
  rewrite rsum_mul, rsum_swap. unfold variation. destruct N as [|n]; [lia|]. set (N := S n) in *.
  change (rsum N (fun m => Rabs (wrapped sigma N (S m mod N) - wrapped sigma N m)))
    with (rsum n (fun m => Rabs (wrapped sigma N (S m mod N) - wrapped sigma N m)) + Rabs (wrapped sigma N (N mod N) - wrapped sigma N n)).
  change (rsum N (fun j => rsum 5 (fun i => Rabs (f (S (i * N + j)) - f (i * N + j)%nat))))
    with (rsum n (fun j => rsum 5 (fun i => Rabs (f (S (i * N + j)) - f (i * N + j)%nat))) + rsum 5 (fun i => Rabs (f (S (i * N + n)) - f (i * N + n)%nat))).
  rewrite Rplus_assoc. apply Rplus_le_compat.
  - apply rsum_le. intros m Hm. rewrite Nat.mod_small by lia. eapply Rle_trans; [right|apply (G m)]. do 2 f_equal. unfold wrapped. apply rsum_ext. intros i _.
    unfold f. apply f_equal. lia.
  - rewrite Nat.mod_same by lia. specialize (G n).
    assert (E : wrapped sigma N 0 = rsum 5 (fun i => f (S (i * N + n))) + (f O - f (5 * N)%nat)).
    { unfold wrapped. cbn [rsum]. fold (f (0 * N + 0)%nat) (f (1 * N + 0)%nat) (f (2 * N + 0)%nat) (f (3 * N + 0)%nat) (f (4 * N + 0)%nat).
      replace (S (0 * N + n)) with (1 * N + 0)%nat by lia. replace (S (1 * N + n)) with (2 * N + 0)%nat by lia. replace (S (2 * N + n)) with (3 * N + 0)%nat by lia.
      replace (S (3 * N + n)) with (4 * N + 0)%nat by lia. replace (S (4 * N + n)) with (5 * N)%nat by lia. replace (0 * N + 0)%nat with O by lia. ring. }
    rewrite E.
    match goal with |- Rabs (?a + ?b - ?c) <= _ => replace (a + b - c) with (a - c + b) by ring end.
    eapply Rle_trans; [apply Rabs_triang|]. rewrite (Rabs_pos_eq (f O - _)) by lra. lra.
Qed.
Lemma bell_step n : bell sigma (1 + Z.of_nat n) <= sigma * (half_gauss (INR (S n) / sigma) - half_gauss (INR n / sigma)).
Proof.
  pose proof (pos_INR n) as Hn. rewrite S_INR. assert (Hi : 0 < / sigma) by now apply Rinv_0_lt_compat.
  pose proof (half_gauss_step (INR n / sigma) (/ sigma) ltac:(apply Rcomplements.Rdiv_le_0_compat; lra) Hi) as H.
  replace (INR n / sigma + / sigma) with ((INR n + 1) / sigma) in H by (field; lra).
  apply Rmult_le_compat_l with (r := sigma) in H; [|lra]. eapply Rle_trans; [right|exact H].
  rewrite <- Rmult_assoc, Rinv_r, Rmult_1_l by lra. unfold bell. apply f_equal. rewrite plus_IZR, <- INR_IZR_INZ. field. lra.
Qed.
Lemma bell_side n : rsum n (fun i => bell sigma (1 + Z.of_nat i)) <= 1257 / 1000 * sigma.
Proof.
  apply Rle_trans with (sigma * half_gauss (INR n / sigma)).
  - induction n as [|n IH].
    + cbn [rsum INR]. replace (0 / sigma) with 0 by (field; lra). rewrite half_gauss_0. lra.
    + cbn [rsum]. pose proof (bell_step n). lra.
  - rewrite Rmult_comm. apply Rmult_le_compat_r; [lra|]. apply half_gauss_bound. apply Rcomplements.Rdiv_le_0_compat; [apply pos_INR|lra].
Qed.
Lemma wrapped_sum N : (0 < N)%nat -> rsum N (wrapped sigma N) <= 1 + 2514 / 1000 * sigma.
Proof.
  intros HN. unfold wrapped. rewrite rsum_swap. rewrite <- (rsum_mul 5 N (fun m => bell sigma (Z.of_nat m - 2 * Z.of_nat N))).
  replace (5 * N)%nat with (2 * N + (1 + (3 * N - 1)))%nat by lia. rewrite !rsum_cat, <- (rsum_rev' (2 * N)). cbn [rsum].
  rewrite (rsum_ext (2 * N) _ (fun i => bell sigma (1 + Z.of_nat i))).
  2:{ intros i Hi. rewrite bell_abs, (bell_abs (1 + _)). apply f_equal. lia. }
  rewrite (rsum_ext (3 * N - 1) _ (fun i => bell sigma (1 + Z.of_nat i))) by (intros i Hi; apply f_equal; lia).
  replace (Z.of_nat (2 * N + 0) - 2 * Z.of_nat N)%Z with 0%Z by lia. rewrite bell_0.
  pose proof (bell_side (2 * N)). pose proof (bell_side (3 * N - 1)). lra.
Qed.
End Bell.

(** ** The low-pass filter *)
Lemma gabor_product M N s u v : 0 < s -> (u < M)%nat -> (v < N)%nat ->
  px N (gabor_2d M N s 0 0 1) u v = RtoC (wrapped s M u * wrapped s N v / (2 * (31415 / 10000) * s ^ 2)).
Proof.
  intros Hs Hu Hv. rewrite C72_gabor by assumption.
  assert (Hc : 2 * (31415 / 10000) * s ^ 2 <> 0) by nra.
  rewrite (csum_ext 5 _ (fun i => RtoC (rsum 5 (fun k => bell s (Z.of_nat (i * M + u) - 2 * Z.of_nat M) * bell s (Z.of_nat (k * N + v) - 2 * Z.of_nat N))))).
  - rewrite rsum_csum, (rsum_ext 5 _ (fun i => wrapped s N v * bell s (Z.of_nat (i * M + u) - 2 * Z.of_nat M))).
    + rewrite rsum_scal. fold (wrapped s M u). replace (2 * (31415 / 10000) * s * s / 1) with (2 * (31415 / 10000) * s ^ 2) by field.
      rewrite <- RtoC_div by exact Hc. apply f_equal. field. lra.
    + intros i _. rewrite rsum_scal. fold (wrapped s N v). ring.
  - intros i _. rewrite <- rsum_csum. apply csum_ext. intros k _. unfold gabor_at, bell. rewrite <- exp_plus, cos_0, sin_0.
    rewrite !Rmult_0_l, cos_0, sin_0. change (1, 0) with (RtoC 1). rewrite Cmult_1_r. do 2 apply f_equal.
    replace (Z.of_nat (i * M + u) - 2 * Z.of_nat M)%Z with (Z.of_nat u + (Z.of_nat i - 2) * Z.of_nat M)%Z by lia.
    replace (Z.of_nat (k * N + v) - 2 * Z.of_nat N)%Z with (Z.of_nat v + (Z.of_nat k - 2) * Z.of_nat N)%Z by lia. field. lra.
Qed.
Lemma dft2_product M N (A B : nat -> R) c k l : c <> 0 ->
  dft2_at M N (fun u v => RtoC (A u * B v / c)) k l = (dft_at M (fun u => RtoC (A u)) k * dft_at N (fun v => RtoC (B v)) l * / RtoC c)%C.
Proof.
  intros Hc. unfold dft2_at, dft_at. rewrite <- !Cmult_assoc, <- csum_scal_r. apply csum_ext. intros a _.
  rewrite (csum_ext N _ (fun b => RtoC (A a) * / RtoC c * (RtoC (B b) * root N (- (l * Z.of_nat b))))%C).
  - rewrite csum_scal. ring.
  - intros b _. unfold Rdiv. rewrite !RtoC_mult, RtoC_inv by exact Hc. ring.
Qed.
Lemma phi_bound M N J a b d e : (0 < M)%nat -> (0 < N)%nat -> (1 <= J)%Z -> (a < M)%nat -> (b < N)%nat ->
  Cmod (px N (phi_hat M N J) a b) * Cmod (root M (Z.of_nat a * d) * root N (Z.of_nat b * e) - 1)%C <= 3 * (Rabs (IZR d) + Rabs (IZR e)) / IZR (2 ^ J).
Proof.
  intros HM HN HJ Ha Hb. unfold phi_hat. set (s := 8 / 10 * powerRZ 2 (J - 1)).
  assert (Es : s = 4 / 10 * IZR (2 ^ J)).
  { unfold s. replace J with (1 + (J - 1))%Z at 2 by lia. rewrite Z.pow_add_r, mult_IZR by lia. change (IZR (2 ^ 1)) with 2.
    replace (powerRZ 2 (J - 1)) with (IZR (2 ^ (J - 1))); [field|]. rewrite <- (Z2Nat.id (J - 1)) by lia. rewrite <- pow_IZR, pow_powerRZ. reflexivity. }
  assert (P2 : 2 <= IZR (2 ^ J)) by (apply IZR_le; replace J with (1 + (J - 1))%Z by lia; rewrite Z.pow_add_r by lia; pose proof (Z.pow_pos_nonneg 2 (J - 1)); lia).
  assert (Hs : 8 / 10 <= s) by lra. set (c := 2 * (31415 / 10000) * s ^ 2). assert (Hc : 0 < c) by (unfold c; nra).
  rewrite px_real_fft2 by (try assumption; unfold gabor_2d; apply img_length).
  set (A := fun k => dft_at M (fun u => RtoC (wrapped s M u)) k). set (B := fun k => dft_at N (fun u => RtoC (wrapped s N u)) k).
  assert (E : dft2_at M N (px N (gabor_2d M N s 0 0 1)) (Z.of_nat a) (Z.of_nat b) = (A (Z.of_nat a) * B (Z.of_nat b) * / RtoC c)%C).
  { unfold A, B. rewrite <- dft2_product by lra. unfold dft2_at. apply dft_at_ext. intros u Hu. apply dft_at_ext. intros v Hv. apply gabor_product; (assumption || lra). }
  rewrite E. set (p := (A (Z.of_nat a) * B (Z.of_nat b) * / RtoC c)%C).
  assert (Ep : Cmod p = Cmod (A (Z.of_nat a)) * Cmod (B (Z.of_nat b)) / c).
  { unfold p. rewrite !Cmod_mult, <- RtoC_inv, Cmod_R, Rabs_pos_eq by (try lra; left; now apply Rinv_0_lt_compat). reflexivity. }
  assert (Hp : Cmod (RtoC (Re p)) <= Cmod p) by (rewrite Cmod_R; eapply Rle_trans; [|apply Rmax_Cmod]; apply Rmax_l).
  set (ra := Cmod (root M (Z.of_nat a) - 1)%C). set (rb := Cmod (root N (Z.of_nat b) - 1)%C).
  assert (Hr : Cmod (root M (Z.of_nat a * d) * root N (Z.of_nat b * e) - 1)%C <= Rabs (IZR d) * ra + Rabs (IZR e) * rb).
  { eapply Rle_trans; [now apply root_product|]. apply Rplus_le_compat; now apply root_multiple. }
  assert (VA : Cmod (A (Z.of_nat a)) * ra <= 2) by (eapply Rle_trans; [now apply dft_variation|apply wrapped_variation; (exact HM || lra)]).
  assert (VB : Cmod (B (Z.of_nat b)) * rb <= 2) by (eapply Rle_trans; [now apply dft_variation|apply wrapped_variation; (exact HN || lra)]).
  assert (SA : Cmod (A (Z.of_nat a)) <= 1 + 2514 / 1000 * s) by (eapply Rle_trans; [apply dft_sum; [exact HM|apply wrapped_pos]|apply wrapped_sum; (exact HM || lra)]).
  assert (SB : Cmod (B (Z.of_nat b)) <= 1 + 2514 / 1000 * s) by (eapply Rle_trans; [apply dft_sum; [exact HN|apply wrapped_pos]|apply wrapped_sum; (exact HN || lra)]).
  pose proof (Cmod_ge_0 (A (Z.of_nat a))) as A0. pose proof (Cmod_ge_0 (B (Z.of_nat b))) as B0.
  assert (R0 : 0 <= ra) by apply Cmod_ge_0. assert (R1 : 0 <= rb) by apply Cmod_ge_0.
  pose proof (Rabs_pos (IZR d)) as D0. pose proof (Rabs_pos (IZR e)) as E0.
  apply Rle_trans with (Cmod p * (Rabs (IZR d) * ra + Rabs (IZR e) * rb)); [apply Rmult_le_compat; try assumption; apply Cmod_ge_0|].
  rewrite Ep. apply Rle_trans with (2 * (1 + 2514 / 1000 * s) / c * (Rabs (IZR d) + Rabs (IZR e))).
  - set (mA := Cmod (A _)) in *. set (mB := Cmod (B _)) in *. clearbody mA mB.
    replace (mA * mB / c * (Rabs (IZR d) * ra + Rabs (IZR e) * rb)) with ((mA * ra * mB * Rabs (IZR d) + mB * rb * mA * Rabs (IZR e)) * / c) by (field; lra).
    replace (2 * (1 + 2514 / 1000 * s) / c * (Rabs (IZR d) + Rabs (IZR e))) with ((2 * (1 + 2514 / 1000 * s) * Rabs (IZR d) + 2 * (1 + 2514 / 1000 * s) * Rabs (IZR e)) * / c) by (field; lra).
    apply Rmult_le_compat_r; [left; now apply Rinv_0_lt_compat|].
    assert (mA * ra * mB <= 2 * (1 + 2514 / 1000 * s)) by (apply Rmult_le_compat; nra). assert (mB * rb * mA <= 2 * (1 + 2514 / 1000 * s)) by (apply Rmult_le_compat; nra).
    apply Rplus_le_compat; apply Rmult_le_compat_r; assumption.
  - replace (3 * (Rabs (IZR d) + Rabs (IZR e)) / IZR (2 ^ J)) with (3 / IZR (2 ^ J) * (Rabs (IZR d) + Rabs (IZR e))) by (field; lra).
    apply Rmult_le_compat_r; [lra|]. apply Rcomplements.Rle_div_l; [exact Hc|]. unfold c.
    replace (IZR (2 ^ J)) with (s * (10 / 4)) by lra.
    replace (3 / (s * (10 / 4)) * (2 * (31415 / 10000) * s ^ 2)) with (3 * (4 / 10) * 2 * (31415 / 10000) * s) by (field; lra). nra.
Qed.

(** The tabulated low-pass at scale [j]: every frequency kept is that of the full grid. *)
Lemma root_band M m r a d : (0 < m)%nat -> (0 < r)%nat -> M = (r * m)%nat -> (a < m)%nat -> root m (Z.of_nat a * d) = root M (Z.of_nat (band M m a) * (Z.of_nat r * d)).
Proof.
  intros Hm Hr -> Ha. rewrite <- (root_scale r m (Z.of_nat a * d)) by assumption. unfold band. destruct (Nat.ltb_spec a (m / 2)).
  - apply f_equal. lia.
  - replace (Z.of_nat (a + (r * m - m)) * (Z.of_nat r * d))%Z with (Z.of_nat r * (Z.of_nat a * d) + Z.of_nat (r * m) * ((Z.of_nat r - 1) * d))%Z
      by (rewrite Nat2Z.inj_add, Nat2Z.inj_sub, Nat2Z.inj_mul by nia; ring).
    rewrite root_add, root_N by nia. ring.
Qed.
Lemma level_bound M N J j a b d e : (0 < M)%nat -> (0 < N)%nat -> (1 <= J)%Z -> (0 <= j <= J)%Z -> Nat.divide (p2 J) M -> Nat.divide (p2 J) N ->
  (a < M / p2 j)%nat -> (b < N / p2 j)%nat ->
  Cmod (px (N / p2 j) (restrict2 M N (phi_hat M N J) (p2 j)) a b) * Cmod (root (M / p2 j) (Z.of_nat a * d) * root (N / p2 j) (Z.of_nat b * e) - 1)%C <=
  3 * (Rabs (IZR (2 ^ j * d)) + Rabs (IZR (2 ^ j * e))) / IZR (2 ^ J).
Proof.
  intros HM HN HJ Hj DM DN Ha Hb. destruct (divs M N J HM HN DM DN j Hj) as (D1 & D2 & P1 & P2). pose proof (p2_pos j) as Hr.
  assert (EM : M = (p2 j * (M / p2 j))%nat) by (destruct D1 as [c ->]; rewrite Nat.div_mul by lia; lia).
  assert (EN : N = (p2 j * (N / p2 j))%nat) by (destruct D2 as [c ->]; rewrite Nat.div_mul by lia; lia).
  unfold restrict2. rewrite px_img by assumption.
  rewrite (root_band M (M / p2 j) (p2 j) a d P1 Hr EM Ha), (root_band N (N / p2 j) (p2 j) b e P2 Hr EN Hb).
  rewrite (Zpow_p2 j) by lia. apply phi_bound; try assumption; apply band_lt; try assumption; nia.
Qed.

(** ** The steps of a path *)
Lemma lowpass2_shift M N x w r d e B : (0 < M)%nat -> (0 < N)%nat ->
  (forall a b, (a < M)%nat -> (b < N)%nat -> Cmod (px N w a b) * Cmod (root M (Z.of_nat a * d) * root N (Z.of_nat b * e) - 1)%C <= B) ->
  dist2 (M / r - 2) (N / r - 2) (sampled_lowpass2 M N (rot2 M N d e x) w r) (sampled_lowpass2 M N x w r) <= B ^ 2 * nrg2 M N x.
Proof.
  intros HM HN HB. set (y := rot2 M N d e x). set (F := fun u v => Re (conv2 M N y (idft2 M N w) u v)). set (G := fun u v => Re (conv2 M N x (idft2 M N w) u v)).
  set (f := fun a b => (Cmod (RtoC (F (Z.of_nat (r * a)%nat) (Z.of_nat (r * b)%nat)) - RtoC (G (Z.of_nat (r * a)%nat) (Z.of_nat (r * b)%nat)))%C ^ 2)%R).
  apply Rle_trans with (rsum (M / r - 2) (fun a => rsum (N / r - 2) (fun b => f (a + 1)%nat (b + 1)%nat))).
  - right. unfold dist2. apply rsum_ext. intros a Ha. apply rsum_ext. intros b Hb. unfold sampled_lowpass2. now rewrite !px_img by assumption.
  - eapply Rle_trans; [apply rsum2_inner; intros; apply pow2_ge_0|].
    eapply Rle_trans; [apply (sample_dist2 M N F G (fun u v => conv2 M N y (idft2 M N w) u v) (fun u v => conv2 M N x (idft2 M N w) u v) r); intros; apply Re_sub_abs|].
    now apply shift_energy2.
Qed.
Lemma nrg2_pos M N x : 0 <= nrg2 M N x.
Proof. apply rsum_pos. intros. apply rsum_pos. intros. apply pow2_ge_0. Qed.
Lemma nrg2_dist2 M N x y : (forall a b, (a < M)%nat -> (b < N)%nat -> px N y a b = RtoC 0) -> dist2 M N x y = nrg2 M N x.
Proof. intros H. apply rsum_ext. intros a Ha. apply rsum_ext. intros b Hb. rewrite H by assumption. do 2 f_equal. ring. Qed.
Lemma nrg2_modulus M N x w r : (0 < M)%nat -> (0 < N)%nat -> nrg2 (M / r) (N / r) (sampled_modulus2 M N x w r) <= impulse_norm M N w ^ 2 * nrg2 M N x.
Proof.
  intros HM HN. set (z := img M N (fun _ _ => RtoC 0)).
  assert (Hz : forall a b, (a < M)%nat -> (b < N)%nat -> px N z a b = RtoC 0) by (intros a b Ha Hb; unfold z; now rewrite px_img by assumption).
  pose proof (modulus2_dist M N (nrg2 M N x) x z w r HM HN) as H. rewrite Rmult_comm, <- (nrg2_dist2 (M / r) (N / r) _ (sampled_modulus2 M N z w r)).
  - apply H. right. now apply nrg2_dist2.
  - intros a b Ha Hb. unfold sampled_modulus2. rewrite px_img by assumption. rewrite conv2_0 by exact Hz. now rewrite Cmod_0.
Qed.
(** The scale at which a path meets the low-pass filter, and the product of the norms of its wavelets. *)
Definition last_scale (js : list Z) : Z := match js with [] => 0 | [j1] => j1 | _ :: j2 :: _ => j2 end%Z.
Definition wgain2 (M N : nat) (L : Z) (js ts : list Z) : R :=
  match js, ts with
  | [], _ => 1
  | [j1], t1 :: _ => impulse_norm M N (psi_hat M N L j1 t1)
  | j1 :: j2 :: _, t1 :: t2 :: _ => impulse_norm M N (psi_hat M N L j1 t1) * impulse_norm (M / p2 j1) (N / p2 j1) (restrict2 M N (psi_hat M N L j2 t2) (p2 j1))
  | _, _ => 0
  end.
Lemma value2_shift M N J L js ts x d e : (0 < M)%nat -> (0 < N)%nat -> (1 <= J)%Z -> Nat.divide (p2 J) M -> Nat.divide (p2 J) N -> label2 J L js ts ->
  let j := last_scale js in
  dist2 (M / p2 J - 2) (N / p2 J - 2) (value2 M N J L js ts (rot2 M N (2 ^ j * d) (2 ^ j * e) x)) (value2 M N J L js ts x) <=
  (3 * (Rabs (IZR (2 ^ j * d)) + Rabs (IZR (2 ^ j * e))) / IZR (2 ^ J) * wgain2 M N L js ts) ^ 2 * nrg2 M N x.
Proof.
  intros HM HN HJ DM DN Hl j. assert (Ej : j = last_scale js) by reflexivity. clearbody j.
  pose proof (fun a b d e => level_bound M N J j a b d e HM HN HJ) as HB.
  destruct Hl as [(-> & ->)|[(j1 & t & -> & -> & Hj & Ht)|(j1 & t1 & j2 & t2 & -> & -> & H1 & H2 & Ht1 & Ht2)]]; cbn [value2 last_scale wgain2] in *; subst j.
  - rewrite Rmult_1_r. unfold S0_val. change P with p2. change (2 ^ 0)%Z with 1%Z in *. rewrite !Z.mul_1_l. apply lowpass2_shift; try assumption.
    intros a b Ha Hb. specialize (HB a b d e ltac:(lia) DM DN). rewrite !p2_0, !Nat.div_1_r, !Z.mul_1_l in HB.
    rewrite (restrict2_1 M N (phi_hat M N J)) in HB by apply phi_hat_length. now apply HB.
  - unfold S1_val, U1_val. change P with p2. rewrite <- (Zpow_p2 j1) in * by lia.
    destruct (sizes M N J HM HN j1 ltac:(lia)) as [E1 E2]. destruct (divs M N J HM HN DM DN j1 ltac:(lia)) as (D1 & D2 & P1 & P2). rewrite <- E1, <- E2.
    rewrite modulus2_rot by (try assumption; apply p2_pos).
    eapply Rle_trans; [apply lowpass2_shift; try assumption; intros a b Ha Hb; apply HB; try assumption; lia|].
    rewrite (Rpow_mult_distr _ (impulse_norm _ _ _)), Rmult_assoc. apply Rmult_le_compat_l; [apply pow2_ge_0|]. now apply nrg2_modulus.
  - unfold S2_val, U2_val, U1_val. change P with p2. rewrite <- (Zpow_p2 j2) in * by lia.
    destruct (sizes M N J HM HN j2 ltac:(lia)) as [E1 E2]. destruct (divs M N J HM HN DM DN j2 ltac:(lia)) as (_ & _ & P1 & P2).
    destruct (divs M N J HM HN DM DN j1 ltac:(lia)) as (D3 & D4 & P3 & P4). rewrite <- E1, <- E2.
    assert (Q1 : (M / p2 j2 = M / p2 j1 / p2 (j2 - j1))%nat) by (rewrite div_div_p2 by lia; apply f_equal; apply f_equal; lia).
    assert (Q2 : (N / p2 j2 = N / p2 j1 / p2 (j2 - j1))%nat) by (rewrite div_div_p2 by lia; apply f_equal; apply f_equal; lia).
    assert (D5 : Nat.divide (p2 (j2 - j1)) (M / p2 j1)) by (apply divide_div; [lia|]; apply (divide_le j2 J); [lia|exact DM]).
    assert (D6 : Nat.divide (p2 (j2 - j1)) (N / p2 j1)) by (apply divide_div; [lia|]; apply (divide_le j2 J); [lia|exact DN]).
    assert (EZ : Z.of_nat (p2 j2) = (Z.of_nat (p2 j1) * Z.of_nat (p2 (j2 - j1)))%Z) by (rewrite <- Nat2Z.inj_mul, <- p2_add by lia; apply f_equal; apply f_equal; lia).
    assert (Erot : rot2 M N (Z.of_nat (p2 j2) * d) (Z.of_nat (p2 j2) * e) x =
      rot2 M N (Z.of_nat (p2 j1) * (Z.of_nat (p2 (j2 - j1)) * d)) (Z.of_nat (p2 j1) * (Z.of_nat (p2 (j2 - j1)) * e)) x) by (rewrite EZ, !Z.mul_assoc; reflexivity).
    rewrite Erot, modulus2_rot by (try assumption; apply p2_pos). rewrite modulus2_rot by (try assumption; apply p2_pos). rewrite <- Q1, <- Q2.
    eapply Rle_trans; [apply lowpass2_shift; try assumption; intros a b Ha Hb; apply HB; try assumption; lia|].
    rewrite (Rpow_mult_distr _ (impulse_norm _ _ _ * _)), Rmult_assoc. apply Rmult_le_compat_l; [apply pow2_ge_0|].
    rewrite Q1, Q2. eapply Rle_trans; [now apply nrg2_modulus|].
    rewrite Rpow_mult_distr, (Rmult_comm (impulse_norm M N _ ^ 2)), Rmult_assoc. apply Rmult_le_compat_l; [apply pow2_ge_0|]. now apply nrg2_modulus.
Qed.
