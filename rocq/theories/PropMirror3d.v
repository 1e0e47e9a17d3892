(** Property C113: HarmonicScattering3D with rotation_covariant=True does not tell a volume from its mirror image. *)
From Coq Require Import String Reals ZArith List Bool Arith Lia Lra.
From Coquelicot Require Import Complex.
From Verif Require Import Base BaseProofs NdArray NdProofs StackProofs Backend Backend2d Images ComplexOps Dft Conv1d Dft2 Mats
  Backend3d Core3d FilterBank3d Frontend3d Dft3 Rows3d Eval3d Path3d PropScat3d PropValues3d Stability1d Transpose2d Axes3d PropAxes3d Mirror3d.
Import ListNotations.
Local Open Scope R_scope.

Lemma solid_kernel_symmetric sph sigma l f1 f2 f3 g1 g2 g3 : addition_theorem sph ->
  csum (2 * l + 1) (fun i => Cmult (solid_harmonic_at sph sigma l (Z.of_nat i - Z.of_nat l) f1 f2 f3) (Cconj (solid_harmonic_at sph sigma l (Z.of_nat i - Z.of_nat l) g1 g2 g3))) =
  csum (2 * l + 1) (fun i => Cmult (solid_harmonic_at sph sigma l (Z.of_nat i - Z.of_nat l) g1 g2 g3) (Cconj (solid_harmonic_at sph sigma l (Z.of_nat i - Z.of_nat l) f1 f2 f3))).
Proof.
  intros HA. assert (CR : forall r, Cconj (RtoC r) = RtoC r) by (intros r; unfold Cconj, RtoC; cbn [fst snd]; now rewrite Ropp_0). destruct (Nat.eq_dec l 0) as [->|Hl].
  - apply csum_ext. intros i _. unfold solid_harmonic_at, solid_harmonic_point. cbn [Nat.eqb]. cbv zeta. rewrite !CR. apply Cmult_comm.
  - destruct (HA l) as (F & HF).
    set (pg := fun r => sqrt (pow r l) * exp (- (1 / 2) * r / pow (1 / sigma) 2) / pow (1 / sigma) l). set (nf := norm_factor true (1 / sigma) l).
    assert (E : forall m h1 h2 h3, solid_harmonic_at sph sigma l m h1 h2 h3 = Cmult (Cmult (sph m (Z.of_nat l) (snd (angles h1 h2 h3)) (fst (angles h1 h2 h3))) (RtoC (pg (pow h1 2 + pow h2 2 + pow h3 2)))) nf).
    { intros m h1 h2 h3. unfold solid_harmonic_at, solid_harmonic_point. destruct (Nat.eqb_spec l 0); [lia|]. cbv zeta. destruct (angles h1 h2 h3) as [po az]. reflexivity. }
    assert (K : forall f1 f2 f3 g1 g2 g3,
      csum (2 * l + 1) (fun i => Cmult (solid_harmonic_at sph sigma l (Z.of_nat i - Z.of_nat l) f1 f2 f3) (Cconj (solid_harmonic_at sph sigma l (Z.of_nat i - Z.of_nat l) g1 g2 g3))) =
      Cmult (F (sin (fst (angles f1 f2 f3)) * sin (fst (angles g1 g2 g3)) * cos (snd (angles f1 f2 f3) - snd (angles g1 g2 g3)) + cos (fst (angles f1 f2 f3)) * cos (fst (angles g1 g2 g3))))
        (Cmult (Cmult (RtoC (pg (pow f1 2 + pow f2 2 + pow f3 2))) (RtoC (pg (pow g1 2 + pow g2 2 + pow g3 2)))) (Cmult nf (Cconj nf)))).
    { clear f1 f2 f3 g1 g2 g3. intros f1 f2 f3 g1 g2 g3. pose proof (C80_angles f1 f2 f3) as A. pose proof (C80_angles g1 g2 g3) as B. cbv zeta in A, B. destruct A as (_ & _ & _ & A4 & _), B as (_ & _ & _ & B4 & _).
      rewrite <- (HF _ _ _ _ A4 B4), <- csum_scal_r. apply csum_ext. intros i _. rewrite !E, !Cconj_mult, CR. ring. }
    rewrite !K. f_equal; [|ring]. f_equal. rewrite (Rmult_comm (sin (fst (angles g1 g2 g3)))), (Rmult_comm (cos (fst (angles g1 g2 g3)))).
    replace (snd (angles g1 g2 g3) - snd (angles f1 f2 f3)) with (- (snd (angles f1 f2 f3) - snd (angles g1 g2 g3))) by ring. now rewrite cos_neg.
Qed.
Lemma bank_symmetric sph M N D J L s0 l j : addition_theorem sph -> (0 <= l <= L)%Z -> (0 <= j <= J)%Z -> symmetric_kernel M N D (comps (solid_harmonic_filter_bank sph M N D J L s0) l j).
Proof.
  intros HA Hl Hj a b c x y z Ha Hb Hc Hx Hy Hz. rewrite !comps_bank by assumption. unfold kernel3. rewrite !map_length, seq_length.
  assert (E : forall i a b c, (i < 2 * Z.to_nat l + 1)%nat -> (a < M)%nat -> (b < N)%nat -> (c < D)%nat ->
    vox N D (nth i (map (fun i => vol M N D (fun a b c => solid_harmonic_at sph (s0 * pow 2 (Z.to_nat j)) (Z.to_nat l) (Z.of_nat i - Z.of_nat (Z.to_nat l)) (freq M a) (freq N b) (freq D c))) (seq 0 (2 * Z.to_nat l + 1))) []) a b c =
    solid_harmonic_at sph (s0 * pow 2 (Z.to_nat j)) (Z.to_nat l) (Z.of_nat i - Z.of_nat (Z.to_nat l)) (freq M a) (freq N b) (freq D c)).
  { clear. intros i a b c Hi Ha Hb Hc. rewrite (nth_map_any _ _ _ _ 0%nat) by (rewrite seq_length; exact Hi). rewrite seq_nth by exact Hi. now rewrite vox_vol. }
  etransitivity; [|etransitivity; [apply (solid_kernel_symmetric sph (s0 * pow 2 (Z.to_nat j)) (Z.to_nat l) (freq M a) (freq N b) (freq D c) (freq M x) (freq N y) (freq D z) HA)|]];
    apply csum_ext; intros i Hi; now rewrite !E.
Qed.
Local Open Scope Z_scope.
(** The volume read backwards along its three axes, from any voxel (d, e, g), circularly; d = M - 1, e = N - 1, g = O - 1 is x[::-1, ::-1, ::-1]. *)
Theorem C113_mirror : forall sph f p batch x x' o d e g, addition_theorem sph -> runs3 f p -> valid3 p -> h_rotation_covariant p = true ->
  new3 sph p = Ok o -> input3 p batch x -> input3 p batch x' -> (forall n, Im (at_ (nd_data x) n) = 0%R) ->
  (forall b i j k, (b < prod batch)%nat -> (i < Mx p)%nat -> (j < Nx p)%nat -> (k < Dx p)%nat ->
     vox (Nx p) (Dx p) (volume (Mx p) (Nx p) (Dx p) b x') i j k =
     vox (Nx p) (Dx p) (volume (Mx p) (Nx p) (Dx p) b x) (Z.to_nat ((d - Z.of_nat i) mod h_M p)) (Z.to_nat ((e - Z.of_nat j) mod h_N p)) (Z.to_nat ((g - Z.of_nat k) mod h_O p))) ->
  exists y, f o x = Ok y /\ f o x' = Ok y.
Proof.
  intros sph f p batch x x' o d e g HA Hf Hv Hc Hn Hx Hx' Hre He. rewrite (new3_ok sph p Hv) in Hn. injection Hn as <-.
  pose proof (bank_ready sph (Mx p) (Nx p) (Dx p) (h_J p) (h_L p) (h_sigma_0 p)) as HF. pose proof (valid3_sizes p Hv) as (_ & _ & _ & HM & HN & HD).
  eexists. split; [apply (runs3_of f p _ _ batch); assumption|]. rewrite (runs3_of f p _ _ batch) by assumption. f_equal. unfold out3. rewrite Hc. f_equal. f_equal.
  apply map_ext_in. intros b Hb. apply in_seq in Hb. apply (coefs3_mirrored (Mx p) (Nx p) (Dx p) d e g); try assumption.
  - apply Hv.
  - intros l j Hl Hj. now apply bank_symmetric.
  - split; [apply (volume_length p batch); [exact Hx|lia]|]. split; [apply (volume_length p batch); [exact Hx'|lia]|]. intros i j k Hi Hj Hk.
    rewrite He by (assumption || lia). unfold back. rewrite !Z2Nat.id by lia. reflexivity.
  - intros i j k Hi Hj Hk. unfold volume, vox, block.
    assert (N1 : forall (l : list C) i n, (i < n)%nat -> nth i (firstn n l) (RtoC 0) = nth i l (RtoC 0)).
    { intros l. induction l as [|a l IH]; intros t n Ht; [now rewrite firstn_nil|]. destruct n; [lia|]. destruct t; [reflexivity|]. cbn [firstn nth]. apply IH. lia. }
    assert (N2 : forall (l : list C) k i, nth i (skipn k l) (RtoC 0) = nth (k + i) l (RtoC 0)).
    { intros l. induction l as [|a l IH]; intros [|n] t; try reflexivity; [cbn; now destruct t|]. cbn [skipn plus nth]. apply IH. }
    rewrite N1; [rewrite N2; apply Hre|]. assert ((i * Nx p + j < Mx p * Nx p)%nat) by nia. nia.
Qed.
Print Assumptions C113_mirror.
(** The volume 1, ..., 6 of 2 x 3 x 1 voxels and the volume 6, ..., 1 read backwards, with the harmonics of degrees 0 and 1. *)
Example C113_instance : exists p x x' o y, valid3 p /\ h_rotation_covariant p = true /\ addition_theorem sph1 /\ new3 sph1 p = Ok o /\
  nd_shape x = [2; 3; 1]%nat /\ nd_shape x' = [2; 3; 1]%nat /\ nd_data x = map (fun n => RtoC (INR n)) [1; 2; 3; 4; 5; 6]%nat /\ nd_data x' = map (fun n => RtoC (INR n)) [6; 5; 4; 3; 2; 1]%nat /\
  numpy_scattering3 o x = Ok y /\ numpy_scattering3 o x' = Ok y /\ nd_shape y = [3; 2; 2]%nat.
Proof.
  pose (p := mk_params3 1 2 3 1 1 1 2 true "integral" [1%R; 2%R]).
  pose (x := mk_nd Real [2; 3; 1]%nat (map (fun n => RtoC (INR n)) [1; 2; 3; 4; 5; 6]%nat)). pose (x' := mk_nd Real [2; 3; 1]%nat (map (fun n => RtoC (INR n)) [6; 5; 4; 3; 2; 1]%nat)).
  assert (Hv : valid3 p) by (unfold valid3; cbn; repeat split; try lia; [lra|discriminate]).
  assert (Hx : input3 p [] x) by (repeat split; cbn; lia). assert (Hx' : input3 p [] x') by (repeat split; cbn; lia).
  pose proof (new3_ok sph1 p Hv) as Hn.
  destruct (C113_mirror sph1 numpy_scattering3 p [] x x' _ 1 2 0 sph1_addition (or_introl eq_refl) Hv eq_refl Hn Hx Hx') as (y & Hy & Hy').
  { intros n. do 6 (destruct n as [|n]; [reflexivity|]). now destruct n. }
  { intros b i j k Hb Hi Hj Hk. cbn in Hb, Hi, Hj, Hk. destruct b as [|b]; [|lia]. destruct k as [|k]; [|lia]. destruct i as [|[|i]]; [| |lia]; (destruct j as [|[|[|j]]]; [| | |lia]); reflexivity. }
  exists p, x, x'. do 2 eexists. split; [exact Hv|]. split; [reflexivity|]. split; [exact sph1_addition|]. split; [exact Hn|]. do 4 (split; [reflexivity|]). split; [exact Hy|]. split; [exact Hy'|].
  pose proof (runs3_of numpy_scattering3 p _ (gaussian_filter_bank 2 3 1 2 1) [] x (or_introl eq_refl) Hv (bank_ready sph1 2 3 1 1 1 1) Hx) as R. pose proof (eq_trans (eq_sym Hy) R) as E. injection E as ->. reflexivity.
Qed.
