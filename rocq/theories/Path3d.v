(** Properties of the 3-D coefficients of one volume: translation, scaling, sign, constants. *)
From Coq Require Import Reals ZArith List Bool Arith Lia Lra.
From Coquelicot Require Import Complex.
From Verif Require Import Base BaseProofs NdArray NdProofs StackProofs Backend Backend2d Images ComplexOps Dft Conv1d Dft2 Mats
  Backend3d Core3d FilterBank3d Frontend3d Dft3 Rows3d Eval3d.
Import ListNotations.
Local Open Scope R_scope.

Lemma rpow_pos x q : 0 < x -> rpow x q = Rpower x q.
Proof. intros H. unfold rpow. now destruct (Rlt_dec 0 x). Qed.
Lemma rpow_0 q : 0 < q -> rpow 0 q = 0.
Proof. intros H. unfold rpow. destruct (Rlt_dec 0 0); [lra|]. destruct (Req_EM_T q 0); lra. Qed.
Lemma rpow_nonneg x q : 0 <= rpow x q.
Proof. unfold rpow. destruct (Rlt_dec 0 x); [apply Rlt_le, exp_pos|]. destruct (Req_EM_T q 0); lra. Qed.
Lemma rpow_mult a x q : 0 <= a -> 0 <= x -> rpow (a * x) q = rpow a q * rpow x q.
Proof.
  intros Ha Hx. destruct Ha as [Ha| <-]; [destruct Hx as [Hx| <-]|].
  - rewrite !rpow_pos by first [assumption|now apply Rmult_lt_0_compat]. now rewrite Rpower_mult_distr.
  - rewrite Rmult_0_r. rewrite (rpow_pos a) by exact Ha. unfold rpow. destruct (Rlt_dec 0 0); [lra|]. destruct (Req_EM_T q 0) as [->|_]; [rewrite Rpower_O by exact Ha; ring|ring].
  - rewrite Rmult_0_l. unfold rpow at 1 2. destruct (Rlt_dec 0 0); [lra|]. destruct (Req_EM_T q 0) as [->|_]; [|ring].
    destruct Hx as [Hx| <-]; [rewrite rpow_pos, Rpower_O by exact Hx; ring|]. unfold rpow. destruct (Rlt_dec 0 0); [lra|]. destruct (Req_EM_T 0 0); [ring|lra].
Qed.
Lemma sum_of_scal k l : sum_of (map (Rmult k) l) = k * sum_of l.
Proof. induction l as [|a l IH]; [cbn; ring|]. unfold sum_of in *. cbn [map fold_right]. rewrite IH. ring. Qed.
Lemma sum_of_nonneg l : Forall (Rle 0) l -> 0 <= sum_of l.
Proof. intros H. induction H as [|a l Ha _ IH]; [cbn; lra|]. unfold sum_of in *. cbn [fold_right]. lra. Qed.
Lemma sum_of_0 {A} (f : A -> R) l : (forall a, In a l -> f a = 0) -> sum_of (map f l) = 0.
Proof.
  intros H. induction l as [|a l IH]; [reflexivity|]. cbn [map sum_of fold_right]. rewrite (H a (or_introl eq_refl)).
  unfold sum_of in IH. rewrite IH; [ring|]. intros b Hb. apply H. now right.
Qed.

Section P3.
Variables (M N D : nat).
Hypothesis (HM : (0 < M)%nat) (HN : (0 < N)%nat) (HD : (0 < D)%nat).
Notation V := (M * (N * D))%nat.

Lemma integral_vol q (f : nat -> nat -> nat -> R) : integral q (vol M N D (fun a b c => RtoC (f a b c))) = csum3 M N D (fun a b c => RtoC (rpow (f a b c) q)).
Proof. unfold integral. rewrite vol_map. now rewrite osum_vol. Qed.
Lemma integral_vox q v : length v = V -> integral q v = csum3 M N D (fun a b c => RtoC (rpow (Re (vox N D v a b c)) q)).
Proof. intros Hv. unfold integral. rewrite <- (vol_vox M N D v Hv) at 1. rewrite vol_map. now rewrite osum_vol. Qed.

(** The wavelet modulus as a real function. *)
Definition u3 (cov : bool) (ws : list (list C)) (v : list C) (a b c : nat) : R :=
  if cov then sqrt (sum_of (map (fun w => pow (envelope3 M N D w v a b c) 2) ws)) else envelope3 M N D (hd [] ws) v a b c.
Lemma U3_eq cov ws v : U3 M N D cov ws v = vol M N D (fun a b c => RtoC (u3 cov ws v a b c)).
Proof. reflexivity. Qed.
Lemma u3_nonneg cov ws v a b c : 0 <= u3 cov ws v a b c.
Proof. unfold u3. destruct cov; [apply sqrt_pos|apply Cmod_ge_0]. Qed.

(** *** Translation *)
Notation tr3 := (translate3 M N D).
Lemma tr3_length d e g v : length (tr3 d e g v) = V.
Proof. apply vol_length. Qed.
Lemma envelope_tr d e g w v a b c : envelope3 M N D w (tr3 d e g v) a b c =
  envelope3 M N D w v (wrap M (Z.of_nat a - d)) (wrap N (Z.of_nat b - e)) (wrap D (Z.of_nat c - g)).
Proof.
  unfold envelope3. rewrite conv3_translate by assumption. f_equal. apply conv3_congr; rewrite wrap_id by assumption; symmetry; apply Z.mod_mod; lia.
Qed.
Lemma U3_tr cov ws d e g v : U3 M N D cov ws (tr3 d e g v) = tr3 d e g (U3 M N D cov ws v).
Proof.
  unfold translate3 at 2. rewrite !U3_eq. apply vol_ext. intros a b c Ha Hb Hc. rewrite vox_vol by (apply wrap_lt; assumption). f_equal. unfold u3. destruct cov.
  - f_equal. f_equal. apply map_ext. intros w. now rewrite envelope_tr.
  - apply envelope_tr.
Qed.
Lemma integral_tr q d e g v : length v = V -> integral q (tr3 d e g v) = integral q v.
Proof.
  intros Hv. rewrite (integral_vox q v Hv), integral_vox by apply tr3_length. rewrite <- (csum3_translate M N D HM HN HD (fun a b c => RtoC (rpow (Re (vox N D v a b c)) q)) d e g).
  apply csum3_ext. intros a b c Ha Hb Hc. unfold translate3. now rewrite vox_vol.
Qed.
Section Bank.
Variables (cov : bool) (F : list (list (list (nd C)))).
Notation Up := (U_path M N D cov F).
Lemma U_path_length l v p : length v = V -> length (Up l v p) = V.
Proof.
  intros Hv. unfold U_path. revert v Hv. induction p as [|j p IH]; intros v Hv; [exact Hv|]. cbn [fold_left]. apply IH, U3_length.
Qed.
Lemma U_path_tr l d e g v p : Up l (tr3 d e g v) p = tr3 d e g (Up l v p).
Proof. unfold U_path. revert v. induction p as [|j p IH]; intros v; [reflexivity|]. cbn [fold_left]. rewrite U3_tr. apply IH. Qed.
Lemma coefs3_tr L J powers mo d e g v : length v = V -> coefs3 M N D cov F L J powers mo (tr3 d e g v) = coefs3 M N D cov F L J powers mo v.
Proof.
  intros Hv. unfold coefs3. f_equal. apply map_ext. intros p. f_equal. apply map_ext. intros l. unfold moments. apply map_ext. intros q.
  rewrite U_path_tr. apply integral_tr. now apply U_path_length.
Qed.

(** *** Multiplication by a constant *)
Lemma envelope_scal k w v a b c : length v = V -> envelope3 M N D w (map (Cmult k) v) a b c = Cmod k * envelope3 M N D w v a b c.
Proof. intros Hv. unfold envelope3. rewrite conv3_scal by assumption. apply Cmod_mult. Qed.
Lemma u3_scal k ws v a b c : length v = V -> u3 cov ws (map (Cmult k) v) a b c = Cmod k * u3 cov ws v a b c.
Proof.
  intros Hv. unfold u3. destruct cov; [|now apply envelope_scal].
  rewrite (map_ext (fun w => pow (envelope3 M N D w (map (Cmult k) v) a b c) 2) (fun w => pow (Cmod k) 2 * pow (envelope3 M N D w v a b c) 2)).
  - rewrite <- (map_map (fun w => pow (envelope3 M N D w v a b c) 2) (Rmult (pow (Cmod k) 2))), sum_of_scal.
    rewrite sqrt_mult_alt by apply pow2_ge_0. now rewrite sqrt_pow2 by apply Cmod_ge_0.
  - intros w. rewrite envelope_scal by exact Hv. now rewrite Rpow_mult_distr.
Qed.
Lemma U3_scal k ws v : length v = V -> U3 M N D cov ws (map (Cmult k) v) = map (Cmult (RtoC (Cmod k))) (U3 M N D cov ws v).
Proof.
  intros Hv. rewrite !U3_eq, vol_map. apply vol_ext. intros a b c _ _ _. rewrite u3_scal by exact Hv. apply RtoC_mult.
Qed.
Lemma Cmod_abs k : Cmod (RtoC (Cmod k)) = Cmod k.
Proof. rewrite Cmod_R. apply Rabs_pos_eq, Cmod_ge_0. Qed.
Lemma U_path_scal l k v p : length v = V -> p <> [] -> Up l (map (Cmult k) v) p = map (Cmult (RtoC (Cmod k))) (Up l v p).
Proof.
  intros Hv Hp. destruct p as [|j p]; [congruence|]. unfold U_path. cbn [fold_left]. rewrite U3_scal by exact Hv.
  assert (G : forall u, length u = V -> fold_left (fun v j => U3 M N D cov (comps F l j) v) p (map (Cmult (RtoC (Cmod k))) u) =
     map (Cmult (RtoC (Cmod k))) (fold_left (fun v j => U3 M N D cov (comps F l j) v) p u)).
  { clear v Hv j Hp. induction p as [|j p IH]; intros u Hu; [reflexivity|]. cbn [fold_left]. rewrite U3_scal by exact Hu. rewrite Cmod_abs. apply IH, U3_length. }
  apply G, U3_length.
Qed.
(** At the end of a path the wavelet modulus is real and not negative. *)
Definition nonneg_real (z : C) : Prop := snd z = 0 /\ 0 <= fst z.
Lemma U_path_nonneg l v p a b c : p <> [] -> (a < M)%nat -> (b < N)%nat -> (c < D)%nat -> nonneg_real (vox N D (Up l v p) a b c).
Proof.
  intros Hp Ha Hb Hc. destruct (exists_last Hp) as (p' & j & ->). unfold U_path. rewrite fold_left_app. cbn [fold_left]. rewrite U3_eq, vox_vol by assumption.
  split; [reflexivity|apply u3_nonneg].
Qed.
Lemma integral_scal l q k v p : length v = V -> p <> [] -> integral q (Up l (map (Cmult k) v) p) = Cmult (RtoC (rpow (Cmod k) q)) (integral q (Up l v p)).
Proof.
  intros Hv Hp. rewrite U_path_scal by assumption. pose proof (U_path_length l v p Hv) as HU. rewrite (integral_vox q (Up l v p) HU).
  rewrite integral_vox by (rewrite map_length; exact HU). rewrite <- csum3_scal. apply csum3_ext. intros a b c Ha Hb Hc.
  rewrite <- RtoC_mult, <- rpow_mult; [|apply Cmod_ge_0|apply (U_path_nonneg l v p); assumption]. do 2 f_equal.
  rewrite <- (vol_vox M N D (Up l v p) HU) at 1. rewrite vol_map, vox_vol by assumption. apply Re_scal.
Qed.
Lemma csum_nonneg n f : (forall i, (i < n)%nat -> nonneg_real (f i)) -> nonneg_real (csum n f).
Proof.
  intros H. induction n as [|n IH]; [split; cbn; lra|]. cbn [csum]. destruct (IH ltac:(intros; apply H; lia)) as [I1 I2]. destruct (H n ltac:(lia)) as [J1 J2].
  unfold nonneg_real, Cplus. cbn [fst snd]. split; lra.
Qed.
Lemma integral_nonneg q v : length v = V -> nonneg_real (integral q v).
Proof.
  intros Hv. rewrite integral_vox by exact Hv. apply csum_nonneg. intros a _. apply csum_nonneg. intros b _. apply csum_nonneg. intros c _.
  split; [reflexivity|]. apply rpow_nonneg.
Qed.

(** *** Constants *)
Definition const3 (k : C) : list C := vol M N D (fun _ _ _ => k).
Lemma envelope_const k w a b c : envelope3 M N D w (const3 k) a b c = Cmod k * Cmod (vox N D w 0 0 0).
Proof. unfold envelope3, const3. rewrite conv3_const by assumption. apply Cmod_mult. Qed.
Lemma U3_const k ws : U3 M N D cov ws (const3 k) =
  const3 (RtoC (Cmod k * (if cov then sqrt (sum_of (map (fun w => pow (Cmod (vox N D w 0 0 0)) 2) ws)) else Cmod (vox N D (hd [] ws) 0 0 0)))).
Proof.
  rewrite U3_eq. unfold const3. apply vol_ext. intros a b c _ _ _. f_equal. unfold u3. destruct cov; [|now apply envelope_const].
  rewrite (map_ext (fun w => pow (envelope3 M N D w (vol M N D (fun _ _ _ => k)) a b c) 2) (fun w => pow (Cmod k) 2 * pow (Cmod (vox N D w 0 0 0)) 2)) by (intros w; fold (const3 k); rewrite envelope_const; apply Rpow_mult_distr).
  rewrite <- (map_map (fun w => pow (Cmod (vox N D w 0 0 0)) 2) (Rmult (pow (Cmod k) 2))), sum_of_scal.
  rewrite sqrt_mult_alt by apply pow2_ge_0. now rewrite sqrt_pow2 by apply Cmod_ge_0.
Qed.
Lemma csum_const n (k : C) : csum n (fun _ => k) = Cmult (RtoC (INR n)) k.
Proof. induction n as [|n IH]; [cbn; ring|]. cbn [csum]. rewrite IH, S_INR, RtoC_plus. ring. Qed.
Lemma integral_const q r : integral q (const3 (RtoC r)) = RtoC (INR V * rpow r q).
Proof.
  unfold const3. rewrite integral_vol. unfold csum3. rewrite (csum_ext M _ (fun _ => Cmult (RtoC (INR N)) (Cmult (RtoC (INR D)) (RtoC (rpow r q))))).
  - rewrite csum_const, <- !RtoC_mult, !mult_INR. f_equal. ring.
  - intros a _. rewrite (csum_ext N _ (fun _ => Cmult (RtoC (INR D)) (RtoC (rpow r q)))) by (intros; apply csum_const). apply csum_const.
Qed.
End Bank.
End P3.
