(** Volumes seen in a mirror (all the axes reversed): convolutions, sums over the components of a solid harmonic, coefficients. *)
From Coq Require Import String Reals ZArith List Bool Arith Lia Lra.
From Coquelicot Require Import Complex.
From Verif Require Import Base BaseProofs NdArray NdProofs StackProofs Backend Backend2d Images ComplexOps Dft Conv1d Dft2 Mats
  Backend3d Core3d FilterBank3d Frontend3d Dft3 Rows3d Eval3d Path3d PropScat3d PropValues3d Stability1d Transpose2d Axes3d.
Import ListNotations.
Local Open Scope C_scope.

(** Sample [a] of an axis of [M] samples read backwards from sample [d], circularly. *)
Definition back (M : nat) (d : Z) (a : nat) : nat := Z.to_nat ((d - Z.of_nat a) mod Z.of_nat M).
Lemma back_lt M d a : (0 < M)%nat -> (back M d a < M)%nat.
Proof. intros HM. unfold back. pose proof (Z.mod_pos_bound (d - Z.of_nat a) (Z.of_nat M) ltac:(lia)). lia. Qed.
Lemma back_Z M d a : (0 < M)%nat -> Z.of_nat (back M d a) = ((d - Z.of_nat a) mod Z.of_nat M)%Z.
Proof. intros HM. unfold back. apply Z2Nat.id. apply Z.mod_pos_bound. lia. Qed.
Lemma back_back M d a : (0 < M)%nat -> (a < M)%nat -> back M d (back M d a) = a.
Proof.
  intros HM Ha. apply Nat2Z.inj. rewrite !back_Z by exact HM. rewrite Zminus_mod_idemp_r. replace (d - (d - Z.of_nat a))%Z with (Z.of_nat a) by ring. apply Z.mod_small. lia.
Qed.
Lemma csum_back M d (g : nat -> C) : (0 < M)%nat -> csum M (fun a => g (back M d a)) = csum M g.
Proof.
  intros HM. pose proof (csum_reflect_mod M (map g (seq 0 M)) d HM) as E.
  assert (A : forall i, (i < M)%nat -> at_ (map g (seq 0 M)) i = g i) by (intros i Hi; now apply at_map_seq).
  rewrite (csum_ext M (at_ (map g (seq 0 M))) g) in E by exact A. rewrite <- E. apply csum_ext. intros k Hk. symmetry. apply A. now apply back_lt.
Qed.
Lemma csum3_back M N D d e g f : (0 < M)%nat -> (0 < N)%nat -> (0 < D)%nat -> csum3 M N D (fun a b c => f (back M d a) (back N e b) (back D g c)) = csum3 M N D f.
Proof.
  intros HM HN HD. unfold csum3. rewrite <- (csum_back M d (fun a => csum N (fun b => csum D (fun c => f a b c))) HM). apply csum_ext. intros a _.
  rewrite <- (csum_back N e (fun b => csum D (fun c => f (back M d a) b c)) HN). apply csum_ext. intros b _.
  now rewrite <- (csum_back D g (fun c => f (back M d a) (back N e b) c) HD).
Qed.
Definition mirrored (M N D : nat) (d e g : Z) (v v' : list C) : Prop :=
  length v = (M * (N * D))%nat /\ length v' = (M * (N * D))%nat /\
  forall a b c, (a < M)%nat -> (b < N)%nat -> (c < D)%nat -> vox N D v' a b c = vox N D v (back M d a) (back N e b) (back D g c).
Definition real_vol (M N D : nat) (v : list C) : Prop := forall a b c, (a < M)%nat -> (b < N)%nat -> (c < D)%nat -> Im (vox N D v a b c) = 0%R.

Lemma root_back M d k a x : (0 < M)%nat -> root M (k * (Z.of_nat a - Z.of_nat (back M d x))) = Cconj (root M (k * (Z.of_nat (back M d a) - Z.of_nat x))).
Proof.
  intros HM. rewrite <- root_opp by exact HM. apply root_congr; [exact HM|]. rewrite !back_Z by exact HM.
  rewrite <- Zmult_mod_idemp_r, Zminus_mod_idemp_r, Zmult_mod_idemp_r.
  replace (- (k * ((d - Z.of_nat a) mod Z.of_nat M - Z.of_nat x)))%Z with (- k * ((d - Z.of_nat a) mod Z.of_nat M - Z.of_nat x))%Z by ring.
  rewrite <- (Zmult_mod_idemp_r _ (- k)), Zminus_mod_idemp_l, Zmult_mod_idemp_r. f_equal. ring.
Qed.
Lemma wave3_back M N D d e g ka kb kc a b c x y z : (0 < M)%nat -> (0 < N)%nat -> (0 < D)%nat ->
  wave3 M N D ka kb kc (Z.of_nat a - Z.of_nat (back M d x)) (Z.of_nat b - Z.of_nat (back N e y)) (Z.of_nat c - Z.of_nat (back D g z)) =
  Cconj (wave3 M N D ka kb kc (Z.of_nat (back M d a) - Z.of_nat x) (Z.of_nat (back N e b) - Z.of_nat y) (Z.of_nat (back D g c) - Z.of_nat z)).
Proof.
  intros HM HN HD. unfold wave3. rewrite !root_back by assumption. rewrite !Cconj_mult. rewrite !Cconj_div_R by (apply not_0_INR; lia). reflexivity.
Qed.
Lemma part3_mirrored M N D d e g v v' a b c ka kb kc : (0 < M)%nat -> (0 < N)%nat -> (0 < D)%nat -> mirrored M N D d e g v v' -> real_vol M N D v ->
  part3 M N D v' (Z.of_nat a) (Z.of_nat b) (Z.of_nat c) ka kb kc = Cconj (part3 M N D v (Z.of_nat (back M d a)) (Z.of_nat (back N e b)) (Z.of_nat (back D g c)) ka kb kc).
Proof.
  intros HM HN HD (_ & _ & H) Hr. unfold part3. rewrite csum3_conj.
  rewrite <- (csum3_back M N D d e g (fun x y z => vox N D v' x y z * wave3 M N D ka kb kc (Z.of_nat a - Z.of_nat x) (Z.of_nat b - Z.of_nat y) (Z.of_nat c - Z.of_nat z))) by assumption.
  apply csum3_ext. intros x y z Hx Hy Hz. rewrite H by (apply back_lt; assumption). rewrite !back_back by assumption. rewrite Cconj_mult. f_equal.
  - symmetry. apply conj_real. now apply Hr.
  - now apply wave3_back.
Qed.

Lemma conj_twice z : Cconj (Cconj z) = z.
Proof. destruct z as [r i]. unfold Cconj. cbn [fst snd]. now rewrite Ropp_involutive. Qed.
Definition symmetric_kernel (M N D : nat) (ws : list (list C)) : Prop :=
  forall a b c x y z, (a < M)%nat -> (b < N)%nat -> (c < D)%nat -> (x < M)%nat -> (y < N)%nat -> (z < D)%nat ->
    kernel3 N D ws a b c x y z = kernel3 N D ws x y z a b c.
Lemma U3_mirrored M N D d e g ws v v' : (0 < M)%nat -> (0 < N)%nat -> (0 < D)%nat -> symmetric_kernel M N D ws -> mirrored M N D d e g v v' -> real_vol M N D v ->
  mirrored M N D d e g (U3 M N D true ws v) (U3 M N D true ws v').
Proof.
  intros HM HN HD HK Hv Hr. split; [apply U3_length|]. split; [apply U3_length|]. intros a b c Ha Hb Hc. unfold U3.
  rewrite !vox_vol by (assumption || (apply back_lt; assumption)). do 2 f_equal. apply RtoC_inj. unfold envelope3.
  rewrite !squares_kernel by assumption. rewrite csum3_csum3. apply csum3_ext. intros x y z Hx Hy Hz. apply csum3_ext. intros x' y' z' Hx' Hy' Hz'.
  rewrite (HK x' y' z' x y z) by assumption. rewrite !(part3_mirrored M N D d e g v v') by assumption. rewrite conj_twice. f_equal. apply Cmult_comm.
Qed.
Lemma U3_real M N D ws v : real_vol M N D (U3 M N D true ws v).
Proof. intros a b c Ha Hb Hc. unfold U3. now rewrite vox_vol. Qed.
Lemma integral_mirrored M N D d e g q v v' : (0 < M)%nat -> (0 < N)%nat -> (0 < D)%nat -> mirrored M N D d e g v v' -> integral q v' = integral q v.
Proof.
  intros HM HN HD (H1 & H2 & H). rewrite (integral_vox M N D q v H1), (integral_vox M N D q v' H2).
  rewrite <- (csum3_back M N D d e g (fun a b c => RtoC (rpow (Re (vox N D v a b c)) q))) by assumption. apply csum3_ext. intros a b c Ha Hb Hc. now rewrite H.
Qed.
Lemma coefs3_mirrored M N D d e g F L J powers mo v v' : (0 < M)%nat -> (0 < N)%nat -> (0 < D)%nat -> (0 <= J)%Z ->
  (forall l j, (0 <= l <= L)%Z -> (0 <= j <= J)%Z -> symmetric_kernel M N D (comps F l j)) -> mirrored M N D d e g v v' -> real_vol M N D v ->
  coefs3 M N D true F L J powers mo v' = coefs3 M N D true F L J powers mo v.
Proof.
  intros HM HN HD HJ HK Hv Hr. unfold coefs3. f_equal. apply map_ext_in. intros p Hp. f_equal. apply map_ext_in. intros l Hl. unfold moments. apply map_ext. intros q.
  apply (integral_mirrored M N D d e g); try assumption. apply In_zrange in Hl.
  assert (Hj : Forall (fun j => 0 <= j <= J)%Z p).
  { destruct (C49_paths J mo HJ) as (_ & _ & _ & P). apply P in Hp as [(j & -> & Hj)|(_ & j1 & j2 & -> & Hj & Hj')]; repeat constructor; lia. }
  clear Hp. unfold U_path. revert v v' Hv Hr. induction Hj as [|j p Hj _ IH]; intros v v' Hv Hr; [exact Hv|]. cbn [fold_left]. apply IH; [|apply U3_real]. apply U3_mirrored; try assumption. apply HK; lia.
Qed.
