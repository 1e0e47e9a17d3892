(** Properties of the 3-D transform: values, invariances and errors (C73-C80). *)
From Coq Require Import String Reals ZArith List Bool Arith Lia Lra.
From Coquelicot Require Import Complex.
From Verif Require Import Base BaseProofs NdArray NdProofs StackProofs Backend Backend2d Images ComplexOps Dft Conv1d Dft2 Mats
  Backend3d Core3d FilterBank3d Frontend3d Dft3 Rows3d Eval3d Path3d PropScat3d.
Import ListNotations.
Local Open Scope Z_scope.
Local Ltac Zify.zify_post_hook ::= Z.div_mod_to_equations.

(** ** C73: the coefficients as a formula *)
Section Formula.
Variables (sph : Z -> Z -> R -> R -> C) (p : params3).
Notation M := (Mx p). Notation N := (Nx p). Notation D := (Dx p).
(** The wavelet of degree l, order m and scale j, in space: inverse Fourier transform of the solid harmonic. *)
Definition psi3 (l j : nat) (m : Z) : list C :=
  idft3 M N D (vol M N D (fun a b c => solid_harmonic_at sph (h_sigma_0 p * pow 2 j) l m (freq M a) (freq N b) (freq D c))).
(** |v * psi|. *)
Definition amp3 (l j : nat) (m : Z) (v : list C) (a b c : nat) : R := Cmod (conv3 M N D v (psi3 l j m) (Z.of_nat a) (Z.of_nat b) (Z.of_nat c)).
(** Root of the sum over m = -l..l, or m = -l alone. *)
Definition u_of (l j : nat) (v : list C) (a b c : nat) : R :=
  if h_rotation_covariant p then sqrt (fold_right Rplus 0%R (map (fun i => pow (amp3 l j (Z.of_nat i - Z.of_nat l) v a b c) 2) (seq 0 (2 * l + 1))))
  else amp3 l j (- Z.of_nat l) v a b c.
(** Sum over the voxels of the q-th power. *)
Definition moment3 (q : R) (u : nat -> nat -> nat -> R) : C := csum3 M N D (fun a b c => RtoC (rpow (u a b c) q)).
End Formula.
Lemma U3_bank sph p l j v : 0 <= h_L p -> (l < Z.to_nat (h_L p + 1))%nat -> 0 <= Z.of_nat j <= h_J p ->
  U3 (Mx p) (Nx p) (Dx p) (h_rotation_covariant p) (comps (solid_harmonic_filter_bank sph (Mx p) (Nx p) (Dx p) (h_J p) (h_L p) (h_sigma_0 p)) (Z.of_nat l) (Z.of_nat j)) v =
  vol (Mx p) (Nx p) (Dx p) (fun a b c => RtoC (u_of sph p l j v a b c)).
Proof.
  intros HL Hl Hj. rewrite comps_bank by lia. rewrite !Nat2Z.id. unfold U3, u_of. apply vol_ext. intros a b c _ _ _. f_equal. destruct (h_rotation_covariant p).
  - rewrite map_map. reflexivity.
  - replace (2 * l + 1)%nat with (S (2 * l)) by lia. cbn [seq map hd]. unfold amp3, psi3, envelope3. rewrite Z.sub_0_l. reflexivity.
Qed.
Theorem C73_first_order : forall sph f p s batch x, runs3 f p -> valid3 p -> new3 sph p = Ok s -> input3 p batch x ->
  exists y, f s x = Ok y /\
  forall b l j q, (b < prod batch)%nat -> (l < Z.to_nat (h_L p + 1))%nat -> (j < Z.to_nat (h_J p + 1))%nat -> (q < List.length (h_integral_powers p))%nat ->
    coef3 p y b j l q = moment3 p (nth q (h_integral_powers p) 0%R) (u_of sph p l j (volume (Mx p) (Nx p) (Dx p) b x)).
Proof.
  intros sph f p s batch x Hf Hv Hn Hx. rewrite (new3_ok sph p Hv) in Hn. injection Hn as <-. pose proof (bank_ready sph (Mx p) (Nx p) (Dx p) (h_J p) (h_L p) (h_sigma_0 p)) as HF.
  eexists. split; [apply runs3_of; eassumption|]. intros b l j q Hb Hl Hj Hq. destruct (C49_paths (h_J p) (h_max_order p) ltac:(apply Hv)) as (P1 & P2 & _).
  pose proof (P2 (Z.of_nat j) ltac:(lia)) as E. rewrite Nat2Z.id in E.
  rewrite out_coef; try assumption.
  - rewrite E. unfold U_path. cbn [fold_left]. rewrite U3_bank by (try lia; apply Hv). apply integral_vol.
  - unfold n_paths. destruct Hv as (HJ & _). destruct (h_max_order p =? 2); [|lia]. assert (0 <= h_J p * (h_J p + 1)) by nia. assert (0 <= h_J p * (h_J p + 1) / 2) by (apply Z.div_pos; lia). lia.
Qed.
Print Assumptions C73_first_order.
Theorem C73_second_order : forall sph f p s batch x, runs3 f p -> valid3 p -> h_max_order p = 2 -> new3 sph p = Ok s -> input3 p batch x ->
  exists y, f s x = Ok y /\
  forall b l j1 j2 q, (b < prod batch)%nat -> (l < Z.to_nat (h_L p + 1))%nat -> (j1 < j2)%nat -> Z.of_nat j2 <= h_J p -> (q < List.length (h_integral_powers p))%nat ->
    coef3 p y b (Z.to_nat (h_J p + 1 + Z.of_nat j1 * (2 * h_J p + 1 - Z.of_nat j1) / 2 + (Z.of_nat j2 - Z.of_nat j1 - 1))) l q =
    moment3 p (nth q (h_integral_powers p) 0%R)
      (u_of sph p l j2 (vol (Mx p) (Nx p) (Dx p) (fun a b' c => RtoC (u_of sph p l j1 (volume (Mx p) (Nx p) (Dx p) b x) a b' c)))).
Proof.
  intros sph f p s batch x Hf Hv Hmo Hn Hx. rewrite (new3_ok sph p Hv) in Hn. injection Hn as <-. pose proof (bank_ready sph (Mx p) (Nx p) (Dx p) (h_J p) (h_L p) (h_sigma_0 p)) as HF.
  eexists. split; [apply runs3_of; eassumption|]. intros b l j1 j2 q Hb Hl Hj Hj2 Hq. destruct (C49_paths (h_J p) (h_max_order p) ltac:(apply Hv)) as (P1 & _ & P3 & _).
  pose proof (P3 Hmo (Z.of_nat j1) (Z.of_nat j2) ltac:(lia) Hj2) as E.
  rewrite out_coef; try assumption.
  - rewrite E. unfold U_path. cbn [fold_left]. rewrite !U3_bank by (try lia; apply Hv). apply integral_vol.
  - rewrite <- P1. destruct (Nat.lt_ge_cases (Z.to_nat (h_J p + 1 + Z.of_nat j1 * (2 * h_J p + 1 - Z.of_nat j1) / 2 + (Z.of_nat j2 - Z.of_nat j1 - 1))) (List.length (paths3 (h_J p) (h_max_order p)))) as [|H]; [assumption|].
    rewrite (nth_overflow _ _ H) in E. discriminate.
Qed.
Print Assumptions C73_second_order.
(** What the powers are. *)
Theorem C73_rpow : forall x q, (0 <= x)%R -> (0 < q)%R -> (rpow x q = if Rlt_dec 0 x then exp (q * ln x) else 0)%R.
Proof. intros x q Hx Hq. unfold rpow. destruct (Rlt_dec 0 x); [reflexivity|]. destruct (Req_EM_T q 0); lra. Qed.
Print Assumptions C73_rpow.
Lemma p_ex_new : exists s, new3 sph0 p_ex = Ok s.
Proof. rewrite (new3_ok sph0 p_ex p_ex_valid). eauto. Qed.
Example C73_instance : exists s y, new3 sph0 p_ex = Ok s /\ numpy_scattering3 s x_ex = Ok y /\
  coef3 p_ex y 1 4 1 0 = moment3 p_ex 1 (u_of sph0 p_ex 1 2 (vol 4 2 3 (fun a b c => RtoC (u_of sph0 p_ex 1 0 (volume 4 2 3 1 x_ex) a b c)))).
Proof.
  destruct p_ex_new as (s & Hs).
  destruct (C73_second_order sph0 numpy_scattering3 p_ex s [2; 1]%nat x_ex (or_introl eq_refl) p_ex_valid eq_refl Hs x_ex_ok) as (y & H1 & H2).
  exists s, y. split; [exact Hs|]. split; [exact H1|]. apply (H2 1%nat 1%nat 0%nat 2%nat 0%nat); cbn; lia.
Qed.

(** ** C74: circular translations change nothing *)
Theorem C74_translation_invariance : forall f p F g batch x x', runs3 f p -> valid3 p -> bank_of p F -> input3 p batch x -> input3 p batch x' ->
  (forall b, (b < prod batch)%nat -> exists d e h : Z, forall i j k, (i < Mx p)%nat -> (j < Nx p)%nat -> (k < Dx p)%nat ->
     vox (Nx p) (Dx p) (volume (Mx p) (Nx p) (Dx p) b x') i j k =
     vox (Nx p) (Dx p) (volume (Mx p) (Nx p) (Dx p) b x) (Z.to_nat ((Z.of_nat i - d) mod h_M p)) (Z.to_nat ((Z.of_nat j - e) mod h_N p)) (Z.to_nat ((Z.of_nat k - h) mod h_O p))) ->
  f (mk_scat3 p F g) x' = f (mk_scat3 p F g) x.
Proof.
  intros f p F g batch x x' Hf Hv HF Hx Hx' Ht. rewrite !(runs3_of f p F g batch) by assumption. f_equal. unfold out3. f_equal. f_equal. apply map_ext_in. intros b Hb. apply in_seq in Hb.
  destruct (Ht b ltac:(lia)) as (d & e & h & E). pose proof (valid3_sizes p Hv) as (S1 & S2 & S3 & HM & HN & HD).
  assert (Hlen : forall z, input3 p batch z -> List.length (volume (Mx p) (Nx p) (Dx p) b z) = (Mx p * (Nx p * Dx p))%nat).
  { intros z (W & _ & Ws & _). unfold volume, block. rewrite firstn_length, skipn_length, W, Ws, prod3. nia. }
  rewrite <- (coefs3_tr (Mx p) (Nx p) (Dx p) HM HN HD _ F _ _ _ _ d e h (volume (Mx p) (Nx p) (Dx p) b x)) by now apply Hlen.
  f_equal. rewrite <- (vol_vox _ _ _ (volume (Mx p) (Nx p) (Dx p) b x')) by now apply Hlen. unfold translate3. apply vol_ext. intros i j k Hi Hj Hk. rewrite E by assumption. unfold wrap. now rewrite <- S1, <- S2, <- S3.
Qed.
Print Assumptions C74_translation_invariance.
Example C74_instance : exists f p F g batch x x', runs3 f p /\ valid3 p /\ bank_of p F /\ input3 p batch x /\ input3 p batch x' /\ x <> x' /\
  f (mk_scat3 p F g) x' = f (mk_scat3 p F g) x.
Proof.
  pose (p := mk_params3 1 2 1 1 0 1 1 true "integral" [1%R]). pose (F := solid_harmonic_filter_bank sph0 2 1 1 1 0 1).
  pose (x := mk_nd Real [2; 1; 1]%nat [RtoC 1; RtoC 0]). pose (x' := mk_nd Real [2; 1; 1]%nat [RtoC 0; RtoC 1]).
  assert (Hv : valid3 p) by (unfold valid3; cbn; repeat split; try lia; [lra|discriminate]).
  assert (HF : bank_of p F) by apply bank_ready.
  assert (Hx : input3 p [] x) by (repeat split; cbn; lia). assert (Hx' : input3 p [] x') by (repeat split; cbn; lia).
  exists numpy_scattering3, p, F, [], [], x, x'. split; [now left|]. split; [exact Hv|]. split; [exact HF|]. split; [exact Hx|]. split; [exact Hx'|]. split.
  - intros E. injection E as E _. lra.
  - apply C74_translation_invariance with (batch := []); try assumption; [now left|]. intros b Hb. assert (b = 0%nat) as -> by (cbn in Hb; lia). exists 1, 0, 0. intros i j k Hi Hj Hk.
    cbn in Hi, Hj, Hk. assert (j = 0%nat) as -> by lia. assert (k = 0%nat) as -> by lia. destruct i as [|[|i]]; [reflexivity|reflexivity|lia].
Qed.

(** ** C75: scaling, sign *)
Definition scale3 (k : R) (x : nd C) : nd C := mk_nd (nd_dtype x) (nd_shape x) (map (Cmult (RtoC k)) (nd_data x)).
Lemma path_nonempty J mo i : 0 <= J -> (i < n_paths J mo)%nat -> nth i (paths3 J mo) [] <> [].
Proof.
  intros HJ Hi. rewrite <- (paths3_length J mo HJ) in Hi. pose proof (nth_In (paths3 J mo) [] Hi) as H. destruct (C49_paths J mo HJ) as (_ & _ & _ & P).
  apply P in H as [(j & -> & _)|(_ & j1 & j2 & -> & _)]; discriminate.
Qed.
Lemma volume_length p batch b z : input3 p batch z -> (b < prod batch)%nat -> List.length (volume (Mx p) (Nx p) (Dx p) b z) = (Mx p * (Nx p * Dx p))%nat.
Proof. intros (W & _ & Ws & _) Hb. unfold volume, block. rewrite firstn_length, skipn_length, W, Ws, prod3. nia. Qed.
Lemma volume_scale M N D b k x : volume M N D b (scale3 k x) = map (Cmult (RtoC k)) (volume M N D b x).
Proof. unfold volume, block, scale3. cbn [nd_data]. now rewrite skipn_map, firstn_map. Qed.
Lemma scale3_input p batch k x : input3 p batch x -> input3 p batch (scale3 k x).
Proof. intros (H1 & H2 & H3 & H4). unfold input3, scale3, nd_wf. cbn [nd_data nd_shape nd_dtype]. rewrite map_length. tauto. Qed.
Theorem C75_homogeneity : forall f p F g batch x k, runs3 f p -> valid3 p -> bank_of p F -> input3 p batch x -> Forall (fun q => 0 <= q)%R (h_integral_powers p) ->
  exists y y', f (mk_scat3 p F g) x = Ok y /\ f (mk_scat3 p F g) (scale3 k x) = Ok y' /\ nd_shape y' = nd_shape y /\
  forall b i l q, (b < prod batch)%nat -> (i < n_paths (h_J p) (h_max_order p))%nat -> (l < Z.to_nat (h_L p + 1))%nat -> (q < List.length (h_integral_powers p))%nat ->
    coef3 p y' b i l q = Cmult (RtoC (rpow (Rabs k) (nth q (h_integral_powers p) 0%R))) (coef3 p y b i l q).
Proof.
  intros f p F g batch x k Hf Hv HF Hx Hq. do 2 eexists. split; [apply (runs3_of f p F g batch); assumption|]. split; [apply (runs3_of f p F g batch); try assumption; now apply scale3_input|].
  split; [reflexivity|]. intros b i l q Hb Hi Hl Hq'. rewrite !out_coef by assumption. rewrite volume_scale.
  pose proof (valid3_sizes p Hv) as (_ & _ & _ & HM & HN & HD). rewrite integral_scal; try assumption.
  - now rewrite Cmod_R.
  - now apply (volume_length p batch).
  - apply path_nonempty; [apply Hv|exact Hi].
Qed.
Print Assumptions C75_homogeneity.
(** Every coefficient is a real number, not negative. *)
Theorem C75_nonneg : forall f p F g batch x y, runs3 f p -> valid3 p -> bank_of p F -> input3 p batch x -> f (mk_scat3 p F g) x = Ok y ->
  Forall (fun z => Im z = 0%R /\ (0 <= Re z)%R) (nd_data y).
Proof.
  intros f p F g batch x y Hf Hv HF Hx Hy. rewrite (runs3_of f p F g batch) in Hy by assumption. injection Hy as <-. unfold out3. cbn [nd_data].
  pose proof (valid3_sizes p Hv) as (_ & _ & _ & HM & HN & HD).
  apply Forall_concat, Forall_map, Forall_forall. intros b Hb. apply in_seq in Hb. unfold coefs3. apply Forall_concat, Forall_map, Forall_forall. intros pth _.
  apply Forall_concat, Forall_map, Forall_forall. intros l _. unfold moments. apply Forall_map, Forall_forall. intros q _.
  apply (integral_nonneg (Mx p) (Nx p) (Dx p)); try assumption. apply U_path_length. apply (volume_length p batch); [exact Hx|lia].
Qed.
Print Assumptions C75_nonneg.
Example C75_instance : exists y y', numpy_scattering3 (mk_scat3 p_ex F_ex []) x_ex = Ok y /\ numpy_scattering3 (mk_scat3 p_ex F_ex []) (scale3 (-2) x_ex) = Ok y' /\
  coef3 p_ex y' 1 5 1 1 = Cmult (RtoC (rpow 2 2)) (coef3 p_ex y 1 5 1 1).
Proof.
  destruct (C75_homogeneity numpy_scattering3 p_ex F_ex [] [2; 1]%nat x_ex (-2) (or_introl eq_refl) p_ex_valid F_ex_ok x_ex_ok) as (y & y' & H1 & H2 & _ & H3).
  - repeat constructor; lra.
  - exists y, y'. split; [exact H1|]. split; [exact H2|]. rewrite H3; [|cbn; lia|cbn; lia|cbn; lia|cbn; lia]. do 3 f_equal. rewrite Rabs_left by lra. ring.
Qed.

(** ** C76: batches, backends *)
Theorem C76_batch_independence : forall f p F g batch batch' x x', runs3 f p -> valid3 p -> bank_of p F -> input3 p batch x -> input3 p batch' x' ->
  exists y y', f (mk_scat3 p F g) x = Ok y /\ f (mk_scat3 p F g) x' = Ok y' /\
  forall b b', (b < prod batch)%nat -> (b' < prod batch')%nat -> volume (Mx p) (Nx p) (Dx p) b x = volume (Mx p) (Nx p) (Dx p) b' x' ->
  forall i l q, (i < n_paths (h_J p) (h_max_order p))%nat -> (l < Z.to_nat (h_L p + 1))%nat -> (q < List.length (h_integral_powers p))%nat ->
    coef3 p y b i l q = coef3 p y' b' i l q.
Proof.
  intros f p F g batch batch' x x' Hf Hv HF Hx Hx'. do 2 eexists. split; [apply (runs3_of f p F g batch); assumption|]. split; [apply (runs3_of f p F g batch'); assumption|].
  intros b b' Hb Hb' E i l q Hi Hl Hq. rewrite !out_coef by assumption. now rewrite E.
Qed.
Print Assumptions C76_batch_independence.
Theorem C76_tensorflow : forall p F g batch x, h_method p = "integral"%string -> valid3 p -> bank_of p F -> input3 p batch x ->
  tf_scattering3 (mk_scat3 p F g) x = numpy_scattering3 (mk_scat3 p F g) x.
Proof. intros p F g batch x Hm Hv HF Hx. rewrite (runs3_of tf_scattering3 p F g batch), (runs3_of numpy_scattering3 p F g batch); try assumption; [reflexivity|now left|now right]. Qed.
Print Assumptions C76_tensorflow.
Example C76_instance : exists y y', numpy_scattering3 (mk_scat3 p_ex F_ex []) x_ex = Ok y /\
   numpy_scattering3 (mk_scat3 p_ex F_ex []) (mk_nd Real [4; 2; 3]%nat (map (fun n => RtoC (INR n)) (seq 24 24))) = Ok y' /\ coef3 p_ex y 1 3 1 0 = coef3 p_ex y' 0 3 1 0.
Proof.
  destruct (C76_batch_independence numpy_scattering3 p_ex F_ex [] [2; 1]%nat [] x_ex (mk_nd Real [4; 2; 3]%nat (map (fun n => RtoC (INR n)) (seq 24 24)))
    (or_introl eq_refl) p_ex_valid F_ex_ok x_ex_ok) as (y & y' & H1 & H2 & H3); [repeat split; cbn; lia|].
  exists y, y'. split; [exact H1|]. split; [exact H2|]. apply H3; [cbn; lia|cbn; lia|reflexivity|cbn; lia|cbn; lia|cbn; lia].
Qed.

(** ** C77: the origin of the filters *)
Lemma pow2_gt_0 x : x <> 0%R -> (0 < pow x 2)%R.
Proof. intros H. rewrite <- Rsqr_pow2. now apply Rsqr_pos_lt. Qed.
Lemma grid_origin_even n : (0 < n)%nat -> Nat.even n = true -> grid_axis n 0 = 0.
Proof. intros Hn He. apply Nat.even_spec in He as (k & ->). unfold grid_axis. rewrite Z.add_0_l. rewrite Z.mod_small by lia. lia. Qed.
Lemma grid_origin_odd n : Nat.odd n = true -> grid_axis n 0 = -1.
Proof. intros Ho. apply Nat.odd_spec in Ho as (k & ->). unfold grid_axis. rewrite Z.add_0_l. rewrite Z.mod_small by lia. lia. Qed.
Lemma freq_origin_even n : (0 < n)%nat -> Nat.even n = true -> freq n 0 = 0%R.
Proof. intros Hn He. unfold freq. rewrite grid_origin_even by assumption. ring. Qed.
Lemma harmonic_origin sph sigma l m : solid_harmonic_at sph sigma l m 0 0 0 = if Nat.eqb l 0 then RtoC 1 else RtoC 0.
Proof.
  unfold solid_harmonic_at, solid_harmonic_point. replace (pow 0 2 + pow 0 2 + pow 0 2)%R with 0%R by ring. destruct (Nat.eqb_spec l 0).
  - f_equal. rewrite <- exp_0. f_equal. unfold Rdiv. ring.
  - destruct (angles 0 0 0) as [po az]. rewrite pow_ne_zero by assumption. rewrite sqrt_0. unfold Rdiv. rewrite !Rmult_0_l. ring.
Qed.
(** Even sizes: at frequency zero degree 0 is one, higher degrees vanish, the Gaussians are one. *)
Theorem C77_origin_partial : forall sph p s, valid3 p -> Nat.even (Mx p) = true -> Nat.even (Nx p) = true -> Nat.even (Dx p) = true -> new3 sph p = Ok s ->
  (forall l j m fl fj w, nth_error (t_filters s) l = Some fl -> nth_error fl j = Some fj -> nth_error fj m = Some w ->
     nth 0 (nd_data w) (RtoC 0) = if Nat.eqb l 0 then RtoC 1 else RtoC 0) /\
  (forall j w, nth_error (t_gaussian_filters s) j = Some w -> nth 0 (nd_data w) (RtoC 0) = RtoC 1).
Proof.
  intros sph p s Hv EM EN ED Hn. rewrite (new3_ok sph p Hv) in Hn. injection Hn as <-. cbn [t_filters t_gaussian_filters].
  pose proof (valid3_sizes p Hv) as (_ & _ & _ & HM & HN & HD).
  assert (HV : forall f : nat -> nat -> nat -> C, nth 0 (vol (Mx p) (Nx p) (Dx p) f) (RtoC 0) = f 0%nat 0%nat 0%nat).
  { intros f. pose proof (nth_vol (RtoC 0) (Mx p) (Nx p) (Dx p) f 0 0 0 HM HN HD) as H. exact H. }
  split.
  - intros l j m fl fj w H1 H2 H3. unfold solid_harmonic_filter_bank in H1. rewrite nth_error_map in H1. destruct (nth_error (zrange 0 (h_L p + 1)) l) as [zl|] eqn:El; [|discriminate].
    injection H1 as <-. rewrite nth_error_map in H2. destruct (nth_error (zrange 0 (h_J p + 1)) j) as [zj|] eqn:Ej; [|discriminate]. injection H2 as <-.
    unfold solid_harmonic_3d in H3. rewrite nth_error_map in H3. destruct (nth_error _ m) as [zm|] eqn:Em; [|discriminate]. injection H3 as <-. cbn [nd_data]. rewrite HV.
    rewrite !freq_origin_even by assumption. rewrite harmonic_origin.
    assert (Hl : (l < Z.to_nat (h_L p + 1 - 0))%nat) by (rewrite <- zrange_length; apply nth_error_Some; congruence).
    apply (nth_error_nth _ _ 0) in El. rewrite nth_zrange in El by exact Hl. subst zl. rewrite Z.add_0_l, Nat2Z.id. reflexivity.
  - intros j w H. unfold gaussian_filter_bank in H. rewrite nth_error_map in H. destruct (nth_error _ j) as [zj|] eqn:Ej; [|discriminate]. injection H as <-. cbn [nd_data]. unfold gaussian_3d. rewrite HV.
    rewrite !freq_origin_even by assumption. unfold gaussian_at. f_equal. rewrite <- exp_0. f_equal. unfold Rdiv. ring.
Qed.
Print Assumptions C77_origin_partial.
(** Odd sizes: index 0 is frequency -2 pi / M, and the Gaussian filters (and the wavelets of degree 0) are below one there. *)
Theorem C77_odd_refuted : forall sph p s, valid3 p -> Nat.odd (Mx p) = true -> new3 sph p = Ok s ->
  (forall j m fl fj w, nth_error (t_filters s) 0 = Some fl -> nth_error fl j = Some fj -> nth_error fj m = Some w -> exists r, nth 0 (nd_data w) (RtoC 0) = RtoC r /\ (0 < r < 1)%R) /\
  (forall j w, nth_error (t_gaussian_filters s) j = Some w -> exists r, nth 0 (nd_data w) (RtoC 0) = RtoC r /\ (0 < r < 1)%R).
Proof.
  intros sph p s Hv OM Hn. rewrite (new3_ok sph p Hv) in Hn. injection Hn as <-. cbn [t_filters t_gaussian_filters].
  pose proof (valid3_sizes p Hv) as (_ & _ & _ & HM & HN & HD). assert (Hs0 : h_sigma_0 p <> 0%R) by apply Hv.
  assert (HV : forall f : nat -> nat -> nat -> C, nth 0 (vol (Mx p) (Nx p) (Dx p) f) (RtoC 0) = f 0%nat 0%nat 0%nat).
  { intros f. pose proof (nth_vol (RtoC 0) (Mx p) (Nx p) (Dx p) f 0 0 0 HM HN HD) as H. exact H. }
  assert (G : forall j a b, (0 < exp (- (1 / 2) * (pow (freq (Mx p) 0) 2 + pow a 2 + pow b 2) / pow (1 / (h_sigma_0 p * pow 2 j)) 2) < 1)%R).
  { intros j a b. split; [apply exp_pos|]. apply (Rlt_le_trans _ (exp 0)); [|rewrite exp_0; apply Rle_refl]. apply exp_increasing. unfold freq. rewrite grid_origin_odd by exact OM.
    assert (A : (0 < pow (1 / (h_sigma_0 p * pow 2 j)) 2)%R).
    { apply pow2_gt_0. unfold Rdiv. rewrite Rmult_1_l. apply Rinv_neq_0_compat. apply Rmult_integral_contrapositive. split; [exact Hs0|apply pow_nonzero; lra]. }
    assert (B : (0 < pow (IZR (-1) * (2 * PI / INR (Mx p))) 2)%R).
    { apply pow2_gt_0. apply Rmult_integral_contrapositive. split; [lra|]. pose proof PI_RGT_0. apply Rgt_not_eq. apply Rdiv_lt_0_compat; [lra|]. now apply lt_0_INR. }
    pose proof (pow2_ge_0 a). pose proof (pow2_ge_0 b). 
    set (A' := pow (1 / (h_sigma_0 p * pow 2 j)) 2) in *. set (B' := pow (IZR (-1) * (2 * PI / INR (Mx p))) 2) in *. set (a' := pow a 2) in *. set (b' := pow b 2) in *.
    assert (0 < (B' + a' + b') * / A')%R by (apply Rmult_lt_0_compat; [lra|now apply Rinv_0_lt_compat]). replace (- (1 / 2) * (B' + a' + b') / A')%R with (- (1 / 2) * ((B' + a' + b') * / A'))%R by (unfold Rdiv; ring).
    lra. }
  split.
  - intros j m fl fj w H1 H2 H3. unfold solid_harmonic_filter_bank in H1. rewrite nth_error_map in H1. destruct (nth_error (zrange 0 (h_L p + 1)) 0) as [zl|] eqn:El; [|discriminate].
    injection H1 as <-. rewrite nth_error_map in H2. destruct (nth_error (zrange 0 (h_J p + 1)) j) as [zj|] eqn:Ej; [|discriminate]. injection H2 as <-.
    unfold solid_harmonic_3d in H3. rewrite nth_error_map in H3. destruct (nth_error _ m) as [zm|] eqn:Em; [|discriminate]. injection H3 as <-. cbn [nd_data]. rewrite HV.
    assert (Hl : (0 < Z.to_nat (h_L p + 1 - 0))%nat) by (rewrite <- zrange_length; apply nth_error_Some; congruence).
    apply (nth_error_nth _ _ 0) in El. rewrite nth_zrange in El by exact Hl. subst zl. cbn [Z.of_nat Z.add Z.to_nat].
    unfold solid_harmonic_at, solid_harmonic_point. cbn [Nat.eqb]. eexists. split; [reflexivity|apply G].
  - intros j w H. unfold gaussian_filter_bank in H. rewrite nth_error_map in H. destruct (nth_error _ j) as [zj|] eqn:Ej; [|discriminate]. injection H as <-. cbn [nd_data]. unfold gaussian_3d. rewrite HV.
    eexists. split; [reflexivity|apply G].
Qed.
Print Assumptions C77_odd_refuted.
(** A constant volume, even sizes: degree 0 gives V |k|^q on every path, higher degrees give 0. *)
Lemma vox_lt M N D i j l : (i < M)%nat -> (j < N)%nat -> (l < D)%nat -> ((i * N + j) * D + l < M * (N * D))%nat.
Proof. intros H1 H2 H3. assert (i * N + j < M * N)%nat by nia. rewrite Nat.mul_assoc. nia. Qed.
Lemma volume_const p batch x k b : input3 p batch x -> (forall z, In z (nd_data x) -> z = RtoC k) -> (b < prod batch)%nat ->
  volume (Mx p) (Nx p) (Dx p) b x = const3 (Mx p) (Nx p) (Dx p) (RtoC k).
Proof.
  intros Hx Hk Hb. unfold const3. rewrite <- (vol_vox _ _ _ _ (volume_length p batch b x Hx Hb)). apply vol_ext. intros i j l Hi Hj Hl. unfold vox. apply Hk.
  assert (H : In (nth ((i * Nx p + j) * Dx p + l) (volume (Mx p) (Nx p) (Dx p) b x) (RtoC 0)) (volume (Mx p) (Nx p) (Dx p) b x)) by (apply nth_In; rewrite (volume_length p batch b x Hx Hb); apply (vox_lt (Mx p)); assumption).
  unfold volume at 2, block at 1 in H. assert (In_first : forall (A : Type) n (l : list A) a, In a (firstn n l) -> In a l) by (intros A n l' a Ha; rewrite <- (firstn_skipn n l'); apply in_or_app; now left).
  assert (In_skip : forall (A : Type) n (l : list A) a, In a (skipn n l) -> In a l) by (intros A n l' a Ha; rewrite <- (firstn_skipn n l'); apply in_or_app; now right).
  apply In_first in H. apply In_skip in H. exact H.
Qed.
Theorem C77_constant : forall sph f p s batch x k, runs3 f p -> valid3 p -> Nat.even (Mx p) = true -> Nat.even (Nx p) = true -> Nat.even (Dx p) = true ->
  Forall (fun q => 0 < q)%R (h_integral_powers p) -> new3 sph p = Ok s -> input3 p batch x -> (forall z, In z (nd_data x) -> z = RtoC k) ->
  exists y, f s x = Ok y /\
  forall b i l q, (b < prod batch)%nat -> (i < n_paths (h_J p) (h_max_order p))%nat -> (l < Z.to_nat (h_L p + 1))%nat -> (q < List.length (h_integral_powers p))%nat ->
    coef3 p y b i l q = if Nat.eqb l 0 then RtoC (INR (Mx p * (Nx p * Dx p)) * rpow (Rabs k) (nth q (h_integral_powers p) 0)%R) else RtoC 0.
Proof.
  intros sph f p s batch x k Hf Hv EM EN ED Hpos Hn Hx Hk. rewrite (new3_ok sph p Hv) in Hn. injection Hn as <-.
  pose proof (bank_ready sph (Mx p) (Nx p) (Dx p) (h_J p) (h_L p) (h_sigma_0 p)) as HF. pose proof (valid3_sizes p Hv) as (_ & _ & _ & HM & HN & HD).
  eexists. split; [apply runs3_of; eassumption|]. intros b i l q Hb Hi Hl Hq. rewrite out_coef by assumption.
  rewrite (volume_const p batch x k b Hx Hk Hb).
  set (M := Mx p) in *. set (N := Nx p) in *. set (D := Dx p) in *.
  assert (St : forall j r, 0 <= j <= h_J p -> U3 M N D (h_rotation_covariant p) (comps (solid_harmonic_filter_bank sph M N D (h_J p) (h_L p) (h_sigma_0 p)) (Z.of_nat l) j) (const3 M N D (RtoC r)) =
      const3 M N D (RtoC (if Nat.eqb l 0 then Rabs r else 0%R))).
  { intros j r Hj. rewrite U3_const by assumption. f_equal. f_equal. rewrite comps_bank by lia. rewrite Nat2Z.id, Cmod_R.
    assert (W : forall m, vox N D (vol M N D (fun a b c => solid_harmonic_at sph (h_sigma_0 p * pow 2 (Z.to_nat j)) l m (freq M a) (freq N b) (freq D c))) 0 0 0 = if Nat.eqb l 0 then RtoC 1 else RtoC 0).
    { intros m. rewrite vox_vol by assumption. unfold M, N, D. rewrite !freq_origin_even by assumption. apply harmonic_origin. }
    destruct (h_rotation_covariant p).
    - rewrite map_map. rewrite (map_ext _ (fun _ : nat => pow (Cmod (if Nat.eqb l 0 then RtoC 1 else RtoC 0)) 2)) by (intros m; now rewrite W).
      destruct (Nat.eqb_spec l 0) as [->|Hl0].
      + cbn [seq map sum_of fold_right Nat.mul Nat.add]. rewrite Cmod_1. replace (pow 1 2 + 0)%R with 1%R by ring. rewrite sqrt_1. ring.
      + rewrite sum_of_0 by (intros; rewrite Cmod_0; ring). rewrite sqrt_0. ring.
    - replace (2 * l + 1)%nat with (S (2 * l)) by lia. cbn [seq map hd]. rewrite W. destruct (Nat.eqb l 0); [rewrite Cmod_1; ring|rewrite Cmod_0; ring]. }
  assert (Hpath : forall j, In j (nth i (paths3 (h_J p) (h_max_order p)) []) -> 0 <= j <= h_J p).
  { assert (HJ : 0 <= h_J p) by apply Hv. intros j Hj. pose proof Hi as Hi'. rewrite <- (paths3_length _ (h_max_order p) HJ) in Hi'. pose proof (nth_In _ [] Hi') as H. destruct (C49_paths (h_J p) (h_max_order p) HJ) as (_ & _ & _ & P).
    apply P in H as [(j' & E & H)|(_ & j1 & j2 & E & H)]; rewrite E in Hj; cbn in Hj; lia. }
  pose proof (path_nonempty (h_J p) (h_max_order p) i ltac:(apply Hv) Hi) as Hne. revert Hpath Hne. generalize (nth i (paths3 (h_J p) (h_max_order p)) []). intros pth Hpath Hne.
  assert (Fin : forall pth r, (forall j, In j pth -> 0 <= j <= h_J p) -> U_path M N D (h_rotation_covariant p) (solid_harmonic_filter_bank sph M N D (h_J p) (h_L p) (h_sigma_0 p)) (Z.of_nat l) (const3 M N D (RtoC r)) pth =
      const3 M N D (RtoC (match pth with [] => r | _ => if Nat.eqb l 0 then Rabs r else 0%R end))).
  { clear Hpath Hne pth. unfold U_path. induction pth as [|j pth IH]; intros r Hp; [reflexivity|]. cbn [fold_left]. rewrite St by (apply Hp; now left). rewrite IH by (intros; apply Hp; now right).
    do 2 f_equal. destruct pth; [reflexivity|]. destruct (Nat.eqb l 0); [apply Rabs_Rabsolu|reflexivity]. }
  rewrite Fin by exact Hpath. destruct pth as [|j0 pth]; [congruence|]. rewrite integral_const by assumption. destruct (Nat.eqb l 0); [reflexivity|].
  rewrite rpow_0; [f_equal; ring|]. assert (HIn : In (nth q (h_integral_powers p) 0%R) (h_integral_powers p)) by now apply nth_In. revert HIn. now apply Forall_forall.
Qed.
Print Assumptions C77_constant.
Example C77_instance : valid3 (mk_params3 1 4 2 6 2 1 2 true "integral" [1%R]) /\ valid3 (mk_params3 1 5 2 6 2 1 2 true "integral" [1%R]).
Proof. unfold valid3. cbn. repeat split; try lia; try lra; discriminate. Qed.

(** ** C78: undocumented values of max_order and method *)
Definition with_order (mo : Z) (p : params3) : params3 :=
  mk_params3 (h_J p) (h_M p) (h_N p) (h_O p) (h_L p) (h_sigma_0 p) mo (h_rotation_covariant p) (h_method p) (h_integral_powers p).
Definition with_method (m : string) (p : params3) : params3 :=
  mk_params3 (h_J p) (h_M p) (h_N p) (h_O p) (h_L p) (h_sigma_0 p) (h_max_order p) (h_rotation_covariant p) m (h_integral_powers p).
(** TensorFlow rejects other methods on every input of the declared size. *)
Theorem C78_method_partial : forall p F g batch x, valid3 p -> input3 p batch x -> h_method p <> "integral"%string ->
  tf_scattering3 (mk_scat3 p F g) x = Err ValueError.
Proof.
  intros p F g batch x Hv (_ & _ & H3 & _) Hm. unfold tf_scattering3. cbn [t_args]. rewrite H3, (check3_ok p _ _ _ batch (valid3_sizes p Hv)). cbn [bind].
  destruct (String.eqb_spec (h_method p) "integral"); [contradiction|reflexivity].
Qed.
Print Assumptions C78_method_partial.
(** NumPy does not look at it. *)
Theorem C78_method_refuted : forall p F g x m, numpy_scattering3 (mk_scat3 (with_method m p) F g) x = numpy_scattering3 (mk_scat3 p F g) x.
Proof. reflexivity. Qed.
Print Assumptions C78_method_refuted.
(** Any max_order other than 2 is accepted and gives the first order only. *)
Theorem C78_order_refuted : forall f p F g batch x mo, runs3 f p -> valid3 p -> bank_of p F -> input3 p batch x -> mo <> 2 ->
  exists y, f (mk_scat3 (with_order mo p) F g) x = Ok y /\ f (mk_scat3 (with_order 1 p) F g) x = Ok y.
Proof.
  intros f p F g batch x mo Hf Hv HF Hx Hmo. exists (out3 (with_order 1 p) F (Mx p) (Nx p) (Dx p) batch x).
  pose proof (runs3_of f (with_order mo p) F g batch x Hf Hv HF Hx) as E1. pose proof (runs3_of f (with_order 1 p) F g batch x Hf Hv HF Hx) as E2. split; [|exact E2].
  rewrite E1. f_equal. unfold out3, coefs3, paths3, with_order. cbn [h_max_order h_M h_N h_O h_J h_L h_integral_powers h_rotation_covariant].
  replace (mo =? 2) with false by (symmetry; now apply Z.eqb_neq). reflexivity.
Qed.
Print Assumptions C78_order_refuted.
Example C78_instance : exists y, numpy_scattering3 (mk_scat3 (with_order 3 p_ex) F_ex []) x_ex = Ok y /\ numpy_scattering3 (mk_scat3 (with_order 1 p_ex) F_ex []) x_ex = Ok y.
Proof. apply (C78_order_refuted numpy_scattering3 p_ex F_ex [] [2; 1]%nat x_ex 3 (or_introl eq_refl) p_ex_valid F_ex_ok x_ex_ok). lia. Qed.

(** ** C79: when construction and call succeed *)
Theorem C79_constructor : forall sph p, 0 <= h_J p -> 0 <= h_L p ->
  ((exists s, new3 sph p = Ok s) <-> 0 < h_M p /\ 0 < h_N p /\ 0 < h_O p /\ h_sigma_0 p <> 0%R).
Proof.
  intros sph p HJ HL. split.
  - intros (s & H). unfold new3 in H. revert H.
    destruct (Z.ltb_spec (h_M p) 0); [discriminate|]. destruct (Z.ltb_spec (h_N p) 0); [discriminate|]. destruct (Z.ltb_spec (h_O p) 0); [discriminate|]. cbn [orb].
    destruct (((0 <=? h_L p) && (h_J p <? -1)) || (h_J p <? -2))%bool; [discriminate|]. destruct (Z.leb_spec (-1) (h_J p)); [|lia]. cbn [andb].
    destruct (Z.eqb_spec (h_M p) 0); [discriminate|]. destruct (Z.eqb_spec (h_N p) 0); [discriminate|]. destruct (Z.eqb_spec (h_O p) 0); [discriminate|]. cbn [orb].
    destruct (Req_EM_T (h_sigma_0 p) 0); [discriminate|]. intros _. repeat split; lia || assumption.
  - intros (HM & HN & HO & Hs). set (p1 := mk_params3 (h_J p) (h_M p) (h_N p) (h_O p) (h_L p) (h_sigma_0 p) (h_max_order p) (h_rotation_covariant p) (h_method p) [1%R]).
    assert (Hv : valid3 p1) by (unfold valid3, p1; cbn; repeat split; try assumption; discriminate). pose proof (new3_ok sph p1 Hv) as E.
    unfold new3 in *. cbn [h_M h_N h_O h_J h_L h_sigma_0 p1] in E. revert E. destruct ((h_M p <? 0) || (h_N p <? 0) || (h_O p <? 0))%bool; [discriminate|].
    destruct (((0 <=? h_L p) && (h_J p <? -1)) || (h_J p <? -2))%bool; [discriminate|]. destruct ((-1 <=? h_J p) && ((h_M p =? 0) || (h_N p =? 0) || (h_O p =? 0)))%bool; [discriminate|].
    destruct ((-1 <=? h_J p) && (if Req_EM_T (h_sigma_0 p) 0 then true else false))%bool; [discriminate|]. intros _. eauto.
Qed.
Print Assumptions C79_constructor.
(** Both frontends accept exactly the non-empty real arrays of the declared size. *)
Theorem C79_call : forall f p F g x, runs3 f p -> valid3 p -> bank_of p F -> nd_wf x ->
  ((exists y, f (mk_scat3 p F g) x = Ok y) <-> exists batch, nd_dtype x = Real /\ nd_shape x = batch ++ [Mx p; Nx p; Dx p] /\ ~ In 0%nat batch).
Proof.
  assert (P0 : forall l, ~ In 0%nat l <-> (0 < prod l)%nat).
  { induction l as [|a l IH]; cbn [In prod fold_right]; [split; [lia|tauto]|]. fold (prod l). split.
    - intros H. assert (0 < prod l)%nat by (apply IH; tauto). destruct a; [tauto|]. nia.
    - intros H [->|H']; [lia|]. revert H'. apply IH. destruct (prod l); lia. }
  intros f p F g x Hf Hv HF Hw. split.
  2:{ intros (batch & Hd & Hs & H0). eexists. apply (runs3_of f p F g batch); try assumption. repeat split; try assumption. now apply P0. }
  intros (y & Hy). pose proof (valid3_sizes p Hv) as (S1 & S2 & S3 & HM & HN & HD).
  assert (Hrun : exists cd, check3 p (nd_shape x) = Ok tt /\ run3 (with_cdgmm cd) (mk_scat3 p F g) x = Ok y /\
      (forall B vols w, vols_ok B (Mx p) (Nx p) (Dx p) vols -> filter3_ok (Mx p) (Nx p) (Dx p) w ->
         cd (of_vols Complex B (Mx p) (Nx p) (Dx p) vols) w = Ok (of_vols Complex B (Mx p) (Nx p) (Dx p) (map (mul_row cops (nd_data w)) vols)))).
  { destruct Hf as [-> | [-> Hm]].
    - exists (np_cdgmm cops). unfold numpy_scattering3 in Hy. cbn [t_args] in Hy. destruct (check3 p (nd_shape x)) as [[]|]; [|discriminate]. cbn [bind] in Hy. rewrite numpy_backend3_eq in Hy.
      split; [reflexivity|]. split; [exact Hy|]. intros; now apply np3_cdgmm_of.
    - exists tf3_cdgmm. unfold tf_scattering3 in Hy. cbn [t_args] in Hy. destruct (check3 p (nd_shape x)) as [[]|]; [|discriminate]. rewrite Hm in Hy. cbn [bind String.eqb Ascii.eqb Bool.eqb negb raise_if] in Hy.
      rewrite tf_backend3_eq in Hy. split; [reflexivity|]. split; [exact Hy|]. intros; now apply tf3_cdgmm_of. }
  clear Hf Hy f. destruct Hrun as (cd & Hc & Hr & Hcd). unfold check3 in Hc. destruct (split_last3 (nd_shape x)) as [[[[pre m] n] o]|] eqn:Es; [|discriminate]. apply split_last3_inv in Es.
  destruct (Z.eqb_spec (Z.of_nat o) (h_O p)) as [E3|]; [|discriminate]. destruct (Z.eqb_spec (Z.of_nat n) (h_N p)) as [E2|]; [|discriminate]. destruct (Z.eqb_spec (Z.of_nat m) (h_M p)) as [E1|]; [|discriminate].
  assert (Em : m = Mx p) by lia. assert (En : n = Nx p) by lia. assert (Eo : o = Dx p) by lia. subst m n o. clear Hc.
  exists pre. unfold run3 in Hr. cbn [t_args t_filters b3_reshape_infer b3_reshape b3_shape with_cdgmm] in Hr.
  rewrite Es, app_length in Hr. cbn [List.length] in Hr. replace (List.length pre + 3 - 3)%nat with (List.length pre) in Hr by lia.
  rewrite firstn_app, firstn_all, Nat.sub_diag, firstn_O, app_nil_r, skipn_app, skipn_all, Nat.sub_diag, skipn_O in Hr. cbn [app] in Hr.
  assert (HV : (Mx p * (Nx p * Dx p) <> 0)%nat) by nia.
  unfold reshape_infer in Hr. rewrite Es, prod3 in Hr. replace (prod [Mx p; Nx p; Dx p]) with (Mx p * (Nx p * Dx p))%nat in Hr by (cbn; ring). destruct (Nat.eqb_spec (Mx p * (Nx p * Dx p)) 0); [lia|].
  rewrite Nat.mod_mul, Nat.div_mul in Hr by exact HV. cbn [Nat.eqb bind] in Hr.
  assert (Hd : nd_dtype x = Real).
  { destruct (nd_dtype x) eqn:Ed; [reflexivity| |]; exfalso; revert Hr; unfold scattering3d; cbn [b3_rfft with_cdgmm]; unfold np3_rfft, real_check, is_real; cbn [nd_dtype negb raise_if bind]; discriminate. }
  split; [exact Hd|]. split; [exact Es|]. apply P0. destruct (Nat.eq_dec (prod pre) 0) as [E0|]; [|lia]. exfalso. rewrite E0, Hd in Hr.
  assert (Hnil : nd_data x = []). { apply length_zero_iff_nil. rewrite Hw, Es, prod3, E0. reflexivity. }
  rewrite Hnil in Hr. revert Hr. change (mk_nd Real [0%nat; Mx p; Nx p; Dx p] []) with (of_vols Real 0 (Mx p) (Nx p) (Dx p) []).
  assert (Hvols : vols_ok 0 (Mx p) (Nx p) (Dx p) []) by (split; [reflexivity|constructor]).
  unfold scattering3d. cbn [b3_rfft with_cdgmm]. rewrite np3_rfft_of by assumption. cbn [bind].
  rewrite zrange_cons by (destruct Hv as (_ & HL & _); lia). cbn [mapM]. unfold degree3 at 1. rewrite (zrange_cons 0 (h_J p + 1)) by (destruct Hv as (HJ & _); lia). cbn [mapM]. unfold first3 at 1.
  rewrite (wavelet_modulus_of cd (Mx p) (Nx p) (Dx p) (h_rotation_covariant p) HM HN HD Hcd 0 [] Hvols F (h_L p) (h_J p) HF) by (destruct Hv as (HJ & HL & _); lia).
  cbn [bind b3_compute_integrals with_cdgmm]. unfold np3_integrals, of_vols. cbn [nd_shape Nat.eqb bind]. discriminate.
Qed.
Print Assumptions C79_call.
(** The exceptions: wrong sizes or too few axes, then a wrong type. *)
Theorem C79_errors : forall f p F g x, runs3 f p -> valid3 p ->
  ((forall batch, nd_shape x <> batch ++ [Mx p; Nx p; Dx p]) -> f (mk_scat3 p F g) x = Err RuntimeError) /\
  (forall batch, nd_shape x = batch ++ [Mx p; Nx p; Dx p] -> nd_dtype x <> Real -> f (mk_scat3 p F g) x = Err TypeError).
Proof.
  intros f p F g x Hf Hv. pose proof (valid3_sizes p Hv) as Hs. pose proof Hs as (S1 & S2 & S3 & HM & HN & HD). split.
  - intros H. assert (Hc : check3 p (nd_shape x) = Err RuntimeError).
    { unfold check3. destruct (split_last3 (nd_shape x)) as [[[[pre m] n] o]|] eqn:Es; [|reflexivity]. apply split_last3_inv in Es.
      destruct (Z.eqb_spec (Z.of_nat o) (h_O p)) as [E3|]; [|reflexivity]. destruct (Z.eqb_spec (Z.of_nat n) (h_N p)) as [E2|]; [|reflexivity]. destruct (Z.eqb_spec (Z.of_nat m) (h_M p)) as [E1|]; [|reflexivity].
      exfalso. apply (H pre). rewrite Es. repeat f_equal; lia. }
    destruct Hf as [-> | [-> Hm]]; unfold numpy_scattering3, tf_scattering3; cbn [t_args]; rewrite Hc; reflexivity.
  - intros batch Es Hd. assert (Hr : forall cd, run3 (with_cdgmm cd) (mk_scat3 p F g) x = Err TypeError).
    { intros cd. unfold run3. cbn [t_args t_filters b3_reshape_infer b3_reshape b3_shape with_cdgmm].
      rewrite Es, app_length. cbn [List.length]. replace (List.length batch + 3 - 3)%nat with (List.length batch) by lia.
      rewrite firstn_app, firstn_all, Nat.sub_diag, firstn_O, app_nil_r, skipn_app, skipn_all, Nat.sub_diag, skipn_O. cbn [app].
      assert (HV : (Mx p * (Nx p * Dx p) <> 0)%nat) by nia.
      unfold reshape_infer. rewrite Es, prod3. replace (prod [Mx p; Nx p; Dx p]) with (Mx p * (Nx p * Dx p))%nat by (cbn; ring). destruct (Nat.eqb_spec (Mx p * (Nx p * Dx p)) 0); [lia|].
      rewrite Nat.mod_mul, Nat.div_mul by exact HV. cbn [Nat.eqb bind]. unfold scattering3d. cbn [b3_rfft with_cdgmm]. unfold np3_rfft, real_check, is_real. cbn [nd_dtype].
      destruct (nd_dtype x); [congruence|reflexivity|reflexivity]. }
    destruct Hf as [-> | [-> Hm]]; unfold numpy_scattering3, tf_scattering3; cbn [t_args]; rewrite Es, (check3_ok p _ _ _ batch Hs); cbn [bind].
    + rewrite numpy_backend3_eq. apply Hr.
    + rewrite Hm. cbn [bind String.eqb Ascii.eqb Bool.eqb negb raise_if]. rewrite tf_backend3_eq. apply Hr.
Qed.
Print Assumptions C79_errors.
Example C79_instance : (exists y, numpy_scattering3 (mk_scat3 p_ex F_ex []) x_ex = Ok y) /\
  numpy_scattering3 (mk_scat3 p_ex F_ex []) (mk_nd Real [4; 3; 2]%nat (repeat (RtoC 0) 24)) = Err RuntimeError /\
  numpy_scattering3 (mk_scat3 p_ex F_ex []) (mk_nd Complex [4; 2; 3]%nat (repeat (RtoC 0) 24)) = Err TypeError.
Proof.
  split; [|split].
  - apply (C79_call numpy_scattering3 p_ex F_ex [] x_ex (or_introl eq_refl) p_ex_valid F_ex_ok eq_refl). exists [2; 1]%nat. repeat split. cbn. lia.
  - apply (C79_errors numpy_scattering3 p_ex F_ex [] _ (or_introl eq_refl) p_ex_valid). intros batch E. cbn in E. apply (f_equal (@rev nat)) in E. rewrite rev_app_distr in E. cbn in E. discriminate.
  - apply (C79_errors numpy_scattering3 p_ex F_ex [] _ (or_introl eq_refl) p_ex_valid) with (batch := []); [reflexivity|discriminate].
Qed.

(** ** C80: spherical coordinates *)
Local Open Scope R_scope.
Lemma arctan2_spec y x : let r := sqrt (pow x 2 + pow y 2) in r * cos (arctan2 y x) = x /\ r * sin (arctan2 y x) = y /\ - PI <= arctan2 y x <= PI.
Proof.
  assert (K : forall a t, 0 < a -> sqrt (pow a 2 + pow (t * a) 2) * cos (atan t) = a /\ sqrt (pow a 2 + pow (t * a) 2) * sin (atan t) = t * a).
  { intros a t Ha. rewrite cos_atan, sin_atan. replace (pow a 2 + pow (t * a) 2) with (pow a 2 * (1 + Rsqr t)) by (unfold Rsqr; ring).
    rewrite sqrt_mult_alt by apply pow2_ge_0. rewrite sqrt_pow2 by lra. assert (0 < sqrt (1 + Rsqr t)) by (apply sqrt_lt_R0; pose proof (Rle_0_sqr t); lra). split; field; lra. }
  pose proof PI_RGT_0 as HPI. cbv zeta. unfold arctan2. destruct (Rlt_dec 0 x) as [Hx|Hx].
  - destruct (K x (y / x) Hx) as [K1 K2]. replace (y / x * x) with y in * by (field; lra). pose proof (atan_bound (y / x)). repeat split; [exact K1|exact K2|lra|lra].
  - destruct (Rlt_dec x 0) as [Hx'|Hx'].
    + destruct (K (- x) (y / x) ltac:(lra)) as [K1 K2]. replace (y / x * - x) with (- y) in * by (field; lra).
      replace (pow (- x) 2 + pow (- y) 2) with (pow x 2 + pow y 2) in * by ring. pose proof (atan_bound (y / x)) as [B1 B2]. unfold Rdiv in B1, B2.
      destruct (Rlt_dec y 0) as [Hy|Hy].
      * assert (0 < atan (y / x)). { rewrite <- atan_0. apply atan_increasing. replace (y / x) with (- y / - x) by (field; lra). apply Rdiv_lt_0_compat; lra. }
        rewrite cos_minus, sin_minus, cos_PI, sin_PI. repeat split; [lra|lra|lra|unfold Rdiv in *; lra].
      * assert (atan (y / x) <= 0). { destruct (Req_EM_T y 0) as [->|Hy0]; [unfold Rdiv; rewrite Rmult_0_l, atan_0; lra|]. rewrite <- atan_0. apply Rlt_le, atan_increasing. replace (y / x) with (- (y / - x)) by (field; lra). assert (0 < y / - x) by (apply Rdiv_lt_0_compat; lra). lra. }
        rewrite cos_plus, sin_plus, cos_PI, sin_PI. repeat split; [lra|lra|unfold Rdiv in *; lra|lra].
    + assert (x = 0) as -> by lra. replace (pow 0 2 + pow y 2) with (pow y 2) by ring. destruct (Rlt_dec 0 y) as [Hy|Hy]; [|destruct (Rlt_dec y 0) as [Hy'|Hy']].
      * rewrite sqrt_pow2 by lra. rewrite cos_PI2, sin_PI2. repeat split; lra.
      * replace (pow y 2) with (pow (- y) 2) by ring. rewrite sqrt_pow2 by lra. rewrite cos_neg, sin_neg, cos_PI2, sin_PI2. repeat split; lra.
      * assert (y = 0) as -> by lra. rewrite sqrt_pow2 by lra. rewrite cos_0, sin_0. repeat split; lra.
Qed.
(** get_3d_angles returns spherical angles of the point (x, y, -z): the polar angle lies in [0, pi] and is measured from
    the negative z axis. *)
Theorem C80_angles : forall z y x, let r := sqrt (x * x + y * y + z * z) in let polar := fst (angles z y x) in let azimuthal := snd (angles z y x) in
  r * sin polar * cos azimuthal = x /\ r * sin polar * sin azimuthal = y /\ r * cos polar = - z /\ 0 <= polar <= PI /\ - PI <= azimuthal <= PI.
Proof.
  intros z y x. cbv zeta. unfold angles. cbn [fst snd]. pose proof (arctan2_spec y x) as A. cbv zeta in A. destruct A as (A1 & A2 & A3).
  set (rxy := sqrt (pow x 2 + pow y 2)) in *. assert (Hr : 0 <= rxy) by apply sqrt_pos.
  pose proof (arctan2_spec z rxy) as B. cbv zeta in B. destruct B as (B1 & B2 & B3).
  replace (pow rxy 2 + pow z 2) with (x * x + y * y + z * z) in * by (unfold rxy; rewrite pow2_sqrt by (apply Rplus_le_le_0_compat; apply pow2_ge_0); ring).
  set (r := sqrt (x * x + y * y + z * z)) in *.
  rewrite sin_plus, cos_plus, cos_PI2, sin_PI2, !Rmult_0_r, !Rmult_1_r, Rplus_0_l. rewrite B1.
  split; [exact A1|]. split; [exact A2|]. split; [lra|]. split; [|exact A3].
  pose proof PI_RGT_0. unfold arctan2. destruct (Rlt_dec 0 rxy); [pose proof (atan_bound (z / rxy)); lra|]. destruct (Rlt_dec rxy 0); [lra|].
  destruct (Rlt_dec 0 z); [lra|]. destruct (Rlt_dec z 0); lra.
Qed.
Print Assumptions C80_angles.
Example C80_instance : angles 1 0 0 = (PI, 0).
Proof.
  unfold angles, arctan2. replace (pow 0 2 + pow 0 2) with 0 by ring. rewrite sqrt_0.
  destruct (Rlt_dec 0 0); [lra|]. destruct (Rlt_dec 0 1); [|lra]. f_equal. field.
Qed.
