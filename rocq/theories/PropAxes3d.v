(** Property C101: HarmonicScattering3D does not depend on the order of the axes. *)
From Coq Require Import String Reals ZArith List Bool Arith Lia Lra.
From Coquelicot Require Import Complex.
From Verif Require Import Base BaseProofs NdArray NdProofs StackProofs Backend Backend2d Images ComplexOps Dft Conv1d Dft2 Mats
  Backend3d Core3d FilterBank3d Frontend3d Dft3 Rows3d Eval3d Path3d PropScat3d PropValues3d Stability1d Transpose2d Axes3d.
Import ListNotations.
Local Open Scope Z_scope.

(** The addition theorem of the spherical harmonics of degree l, a fact about scipy.special.sph_harm(m, l, azimuthal, polar) (with
    F(t) = (2 l + 1) / (4 pi) P_l(t)): the sum over m of Y_l^m at one direction times its conjugate at another one only depends on the cosine of their angle. *)
Definition addition_theorem (sph : Z -> Z -> R -> R -> C) : Prop :=
  forall l : nat, exists F : R -> C, forall az po az' po', (0 <= po <= PI)%R -> (0 <= po' <= PI)%R ->
    csum (2 * l + 1) (fun i => Cmult (sph (Z.of_nat i - Z.of_nat l) (Z.of_nat l) az po) (Cconj (sph (Z.of_nat i - Z.of_nat l) (Z.of_nat l) az' po'))) =
    F (sin po * sin po' * cos (az - az') + cos po * cos po')%R.

Local Open Scope R_scope.
Lemma dot_angles r r' po az po' az' x y z x' y' z' : 0 < r -> 0 < r' ->
  r * sin po * cos az = x -> r * sin po * sin az = y -> r * cos po = - z -> r' * sin po' * cos az' = x' -> r' * sin po' * sin az' = y' -> r' * cos po' = - z' ->
  sin po * sin po' * cos (az - az') + cos po * cos po' = (z * z' + y * y' + x * x') / (r * r').
Proof.
  intros Hr Hr' <- <- Ez <- <- Ez'. assert (z = - (r * cos po)) as -> by lra. assert (z' = - (r' * cos po')) as -> by lra. rewrite cos_minus. field. lra.
Qed.
Lemma solid_kernel sph sigma l : addition_theorem sph -> exists G : R -> R -> R -> C, forall f1 f2 f3 g1 g2 g3,
  csum (2 * l + 1) (fun i => Cmult (solid_harmonic_at sph sigma l (Z.of_nat i - Z.of_nat l) f1 f2 f3) (Cconj (solid_harmonic_at sph sigma l (Z.of_nat i - Z.of_nat l) g1 g2 g3))) =
  G (pow f1 2 + pow f2 2 + pow f3 2) (pow g1 2 + pow g2 2 + pow g3 2) (f1 * g1 + f2 * g2 + f3 * g3).
Proof.
  intros HA. destruct (Nat.eq_dec l 0) as [->|Hl].
  - exists (fun p q _ => Cmult (RtoC (exp (- (1 / 2) * p / pow (1 / sigma) 2))) (Cconj (RtoC (exp (- (1 / 2) * q / pow (1 / sigma) 2))))).
    intros f1 f2 f3 g1 g2 g3. cbn [Nat.mul Nat.add csum]. rewrite Cplus_0_l. reflexivity.
  - destruct (HA l) as (F & HF).
    set (pg := fun r => sqrt (pow r l) * exp (- (1 / 2) * r / pow (1 / sigma) 2) / pow (1 / sigma) l). set (nf := norm_factor true (1 / sigma) l).
    exists (fun p q d => if Req_EM_T p 0 then RtoC 0 else if Req_EM_T q 0 then RtoC 0 else Cmult (F (d / (sqrt p * sqrt q))) (Cmult (Cmult (RtoC (pg p)) (RtoC (pg q))) (Cmult nf (Cconj nf)))).
    intros f1 f2 f3 g1 g2 g3.
    assert (E : forall m h1 h2 h3, solid_harmonic_at sph sigma l m h1 h2 h3 = Cmult (Cmult (sph m (Z.of_nat l) (snd (angles h1 h2 h3)) (fst (angles h1 h2 h3))) (RtoC (pg (pow h1 2 + pow h2 2 + pow h3 2)))) nf).
    { intros m h1 h2 h3. unfold solid_harmonic_at, solid_harmonic_point. destruct (Nat.eqb_spec l 0); [lia|]. cbv zeta. destruct (angles h1 h2 h3) as [po az]. reflexivity. }
    rewrite (csum_ext _ _ (fun i => Cmult (Cmult (sph (Z.of_nat i - Z.of_nat l)%Z (Z.of_nat l) (snd (angles f1 f2 f3)) (fst (angles f1 f2 f3)))
        (Cconj (sph (Z.of_nat i - Z.of_nat l)%Z (Z.of_nat l) (snd (angles g1 g2 g3)) (fst (angles g1 g2 g3)))))
        (Cmult (Cmult (RtoC (pg (pow f1 2 + pow f2 2 + pow f3 2))) (RtoC (pg (pow g1 2 + pow g2 2 + pow g3 2)))) (Cmult nf (Cconj nf))))).
    2:{ intros i _. rewrite !E, !Cconj_mult. replace (Cconj (RtoC (pg (pow g1 2 + pow g2 2 + pow g3 2)))) with (RtoC (pg (pow g1 2 + pow g2 2 + pow g3 2))) by (unfold Cconj, RtoC; cbn [fst snd]; now rewrite Ropp_0). ring. }
    rewrite csum_scal_r.
    pose proof (C80_angles f1 f2 f3) as A. pose proof (C80_angles g1 g2 g3) as B. cbv zeta in A, B. destruct A as (A1 & A2 & A3 & A4 & _), B as (B1 & B2 & B3 & B4 & _).
    rewrite (HF _ _ _ _ A4 B4).
    replace (f3 * f3 + f2 * f2 + f1 * f1) with (pow f1 2 + pow f2 2 + pow f3 2) in * by ring. replace (g3 * g3 + g2 * g2 + g1 * g1) with (pow g1 2 + pow g2 2 + pow g3 2) in * by ring.
    set (p := pow f1 2 + pow f2 2 + pow f3 2) in *. set (q := pow g1 2 + pow g2 2 + pow g3 2) in *.
    assert (P0 : pg 0 = 0). { unfold pg. rewrite pow_i by lia. rewrite sqrt_0. unfold Rdiv. ring. }
    destruct (Req_EM_T p 0) as [->|Hp]; [rewrite P0; ring|]. destruct (Req_EM_T q 0) as [->|Hq]; [rewrite P0; ring|].
    assert (0 <= p) by (unfold p; nra). assert (0 <= q) by (unfold q; nra). assert (Sp : 0 < sqrt p) by (apply sqrt_lt_R0; lra). assert (Sq : 0 < sqrt q) by (apply sqrt_lt_R0; lra).
    f_equal. f_equal. now apply dot_angles.
Qed.

(** ** Two adjacent axes *)
Lemma bank_same_kernel sph s M N D J L s0 l j : addition_theorem sph -> (0 <= l <= L)%Z -> (0 <= j <= J)%Z ->
  same_kernel s M N D (comps (solid_harmonic_filter_bank sph M N D J L s0) l j)
    (comps (solid_harmonic_filter_bank sph (ax1 s M N D) (ax2 s M N D) (ax3 s M N D) J L s0) l j).
Proof.
  intros HA Hl Hj a b c x y z Ha Hb Hc Hx Hy Hz. rewrite !comps_bank by assumption. unfold kernel3. rewrite !map_length, seq_length.
  destruct (solid_kernel sph (s0 * pow 2 (Z.to_nat j)) (Z.to_nat l) HA) as (G & HG).
  assert (K : forall M N D a b c x y z, (a < M)%nat -> (b < N)%nat -> (c < D)%nat -> (x < M)%nat -> (y < N)%nat -> (z < D)%nat ->
    csum (2 * Z.to_nat l + 1) (fun i => Cmult (vox N D (nth i (map (fun i => vol M N D (fun a b c => solid_harmonic_at sph (s0 * pow 2 (Z.to_nat j)) (Z.to_nat l) (Z.of_nat i - Z.of_nat (Z.to_nat l)) (freq M a) (freq N b) (freq D c)))
        (seq 0 (2 * Z.to_nat l + 1))) []) a b c)
      (Cconj (vox N D (nth i (map (fun i => vol M N D (fun a b c => solid_harmonic_at sph (s0 * pow 2 (Z.to_nat j)) (Z.to_nat l) (Z.of_nat i - Z.of_nat (Z.to_nat l)) (freq M a) (freq N b) (freq D c)))
        (seq 0 (2 * Z.to_nat l + 1))) []) x y z))) =
    G (pow (freq M a) 2 + pow (freq N b) 2 + pow (freq D c) 2) (pow (freq M x) 2 + pow (freq N y) 2 + pow (freq D z) 2) (freq M a * freq M x + freq N b * freq N y + freq D c * freq D z)).
  { clear - HG. intros M N D a b c x y z Ha Hb Hc Hx Hy Hz. rewrite <- HG. apply csum_ext. intros i Hi. rewrite (nth_map_any _ _ _ _ 0%nat) by (rewrite seq_length; exact Hi). rewrite seq_nth by exact Hi.
    now rewrite !vox_vol. }
  rewrite !K by (destruct s; cbn; assumption). destruct s; cbn [ax1 ax2 ax3]; f_equal; ring.
Qed.
Local Open Scope Z_scope.
Lemma exchange s sph f p p' batch x x' o o' : addition_theorem sph -> runs3 f p -> runs3 f p' -> valid3 p -> valid3 p' -> h_rotation_covariant p = true ->
  Mx p' = ax1 s (Mx p) (Nx p) (Dx p) -> Nx p' = ax2 s (Mx p) (Nx p) (Dx p) -> Dx p' = ax3 s (Mx p) (Nx p) (Dx p) ->
  h_J p' = h_J p -> h_L p' = h_L p -> h_sigma_0 p' = h_sigma_0 p -> h_max_order p' = h_max_order p -> h_rotation_covariant p' = true -> h_integral_powers p' = h_integral_powers p ->
  new3 sph p = Ok o -> new3 sph p' = Ok o' -> input3 p batch x -> input3 p' batch x' ->
  (forall b, (b < prod batch)%nat -> exchanged s (Mx p) (Nx p) (Dx p) (volume (Mx p) (Nx p) (Dx p) b x) (volume (Mx p') (Nx p') (Dx p') b x')) ->
  exists y, f o x = Ok y /\ f o' x' = Ok y.
Proof.
  intros HA Hf Hf' Hv Hv' Hc E1 E2 E3 EJ EL ES EO Hc' EP Hn Hn' Hx Hx' He. rewrite (new3_ok sph p Hv) in Hn. rewrite (new3_ok sph p' Hv') in Hn'. injection Hn as <-. injection Hn' as <-.
  pose proof (bank_ready sph (Mx p) (Nx p) (Dx p) (h_J p) (h_L p) (h_sigma_0 p)) as HF. pose proof (bank_ready sph (Mx p') (Nx p') (Dx p') (h_J p') (h_L p') (h_sigma_0 p')) as HF'.
  eexists. split; [apply (runs3_of f p _ _ batch); assumption|]. rewrite (runs3_of f p' _ _ batch) by assumption. f_equal. unfold out3. rewrite EJ, EL, ES, EO, Hc, Hc', EP, E1, E2, E3. f_equal. f_equal.
  pose proof (valid3_sizes p Hv) as (_ & _ & _ & HM & HN & HD). apply map_ext_in. intros b Hb. apply in_seq in Hb. rewrite E1, E2, E3 in He. apply coefs3_exchanged; try assumption.
  - apply Hv.
  - intros l j Hl Hj. now apply bank_same_kernel.
  - apply He. lia.
Qed.
(** Volumes with their axes in another order, and the object for them. *)
Definition with_shape (p : params3) (M N O : Z) : params3 :=
  mk_params3 (h_J p) M N O (h_L p) (h_sigma_0 p) (h_max_order p) (h_rotation_covariant p) (h_method p) (h_integral_powers p).
Theorem C101_first_axes : forall sph f p batch x x' o o', addition_theorem sph -> runs3 f p -> valid3 p -> h_rotation_covariant p = true ->
  new3 sph p = Ok o -> new3 sph (with_shape p (h_N p) (h_M p) (h_O p)) = Ok o' -> input3 p batch x -> input3 (with_shape p (h_N p) (h_M p) (h_O p)) batch x' ->
  (forall b i j k, (b < prod batch)%nat -> (i < Mx p)%nat -> (j < Nx p)%nat -> (k < Dx p)%nat ->
     vox (Mx p) (Dx p) (volume (Nx p) (Mx p) (Dx p) b x') j i k = vox (Nx p) (Dx p) (volume (Mx p) (Nx p) (Dx p) b x) i j k) ->
  exists y, f o x = Ok y /\ f o' x' = Ok y.
Proof.
  intros sph f p batch x x' o o' HA Hf Hv Hc Hn Hn' Hx Hx' He.
  assert (Hv' : valid3 (with_shape p (h_N p) (h_M p) (h_O p))) by (destruct Hv as (V1 & V2 & V3 & V4 & V5 & V6 & V7); repeat split; assumption).
  apply (exchange true sph f p (with_shape p (h_N p) (h_M p) (h_O p)) batch x x' o o'); try assumption; try reflexivity.
  intros b Hb. split; [now apply (volume_length p batch)|]. split; [rewrite (volume_length _ batch b x' Hx' Hb); cbn [with_shape h_M h_N h_O]; ring|]. intros i j k Hi Hj Hk. now apply He.
Qed.
Print Assumptions C101_first_axes.
Theorem C101_last_axes : forall sph f p batch x x' o o', addition_theorem sph -> runs3 f p -> valid3 p -> h_rotation_covariant p = true ->
  new3 sph p = Ok o -> new3 sph (with_shape p (h_M p) (h_O p) (h_N p)) = Ok o' -> input3 p batch x -> input3 (with_shape p (h_M p) (h_O p) (h_N p)) batch x' ->
  (forall b i j k, (b < prod batch)%nat -> (i < Mx p)%nat -> (j < Nx p)%nat -> (k < Dx p)%nat ->
     vox (Dx p) (Nx p) (volume (Mx p) (Dx p) (Nx p) b x') i k j = vox (Nx p) (Dx p) (volume (Mx p) (Nx p) (Dx p) b x) i j k) ->
  exists y, f o x = Ok y /\ f o' x' = Ok y.
Proof.
  intros sph f p batch x x' o o' HA Hf Hv Hc Hn Hn' Hx Hx' He.
  assert (Hv' : valid3 (with_shape p (h_M p) (h_O p) (h_N p))) by (destruct Hv as (V1 & V2 & V3 & V4 & V5 & V6 & V7); repeat split; assumption).
  apply (exchange false sph f p (with_shape p (h_M p) (h_O p) (h_N p)) batch x x' o o'); try assumption; try reflexivity.
  intros b Hb. split; [now apply (volume_length p batch)|]. split; [rewrite (volume_length _ batch b x' Hx' Hb); cbn [with_shape h_M h_N h_O]; ring|]. intros i j k Hi Hj Hk. now apply He.
Qed.
Print Assumptions C101_last_axes.
Theorem C101_rotation : forall sph f p batch x x' o o', addition_theorem sph -> runs3 f p -> valid3 p -> h_rotation_covariant p = true ->
  new3 sph p = Ok o -> new3 sph (with_shape p (h_N p) (h_O p) (h_M p)) = Ok o' -> input3 p batch x -> input3 (with_shape p (h_N p) (h_O p) (h_M p)) batch x' ->
  (forall b i j k, (b < prod batch)%nat -> (i < Mx p)%nat -> (j < Nx p)%nat -> (k < Dx p)%nat ->
     vox (Dx p) (Mx p) (volume (Nx p) (Dx p) (Mx p) b x') j k i = vox (Nx p) (Dx p) (volume (Mx p) (Nx p) (Dx p) b x) i j k) ->
  exists y, f o x = Ok y /\ f o' x' = Ok y.
Proof.
  intros sph f p batch x x' o o' HA Hf Hv Hc Hn Hn' Hx Hx' He.
  assert (Hv' : valid3 (with_shape p (h_N p) (h_O p) (h_M p))) by (destruct Hv as (V1 & V2 & V3 & V4 & V5 & V6 & V7); repeat split; assumption).
  rewrite (new3_ok sph p Hv) in Hn. rewrite (new3_ok sph _ Hv') in Hn'. injection Hn as <-. injection Hn' as <-.
  pose proof (bank_ready sph (Mx p) (Nx p) (Dx p) (h_J p) (h_L p) (h_sigma_0 p)) as HF. pose proof (bank_ready sph (Nx p) (Dx p) (Mx p) (h_J p) (h_L p) (h_sigma_0 p)) as HF'.
  eexists. split; [apply (runs3_of f p _ _ batch); assumption|]. etransitivity; [apply (runs3_of f _ _ _ batch); assumption|]. f_equal. unfold out3.
  cbn [with_shape h_J h_L h_M h_N h_O h_sigma_0 h_max_order h_rotation_covariant h_method h_integral_powers]. rewrite Hc. f_equal. f_equal.
  pose proof (valid3_sizes p Hv) as (_ & _ & _ & HM & HN & HD). apply map_ext_in. intros b Hb. apply in_seq in Hb.
  pose (v := volume (Mx p) (Nx p) (Dx p) b x). pose (v1 := vol (Nx p) (Mx p) (Dx p) (fun j i k => vox (Nx p) (Dx p) v i j k)).
  assert (Lv : List.length v = (Mx p * (Nx p * Dx p))%nat) by (apply (volume_length p batch); [exact Hx|lia]).
  assert (X1 : exchanged true (Mx p) (Nx p) (Dx p) v v1).
  { split; [exact Lv|]. split; [unfold v1; rewrite vol_length; ring|]. intros i j k Hi Hj Hk. unfold sw, v1. cbn [ax2 ax3]. now rewrite vox_vol. }
  assert (X2 : exchanged false (Nx p) (Mx p) (Dx p) v1 (volume (Nx p) (Dx p) (Mx p) b x')).
  { split; [apply vol_length|]. split.
    - etransitivity; [apply (volume_length (with_shape p (h_N p) (h_O p) (h_M p)) batch b x' Hx'); lia|]. cbn [with_shape h_M h_N h_O]. ring.
    - intros j i k Hj Hi Hk. unfold sw, v1. cbn [ax2 ax3]. rewrite vox_vol by assumption. apply He; try assumption. lia. }
  fold v. rewrite <- (coefs3_exchanged true (Mx p) (Nx p) (Dx p) (solid_harmonic_filter_bank sph (Mx p) (Nx p) (Dx p) (h_J p) (h_L p) (h_sigma_0 p))
    (solid_harmonic_filter_bank sph (Nx p) (Mx p) (Dx p) (h_J p) (h_L p) (h_sigma_0 p)) (h_L p) (h_J p) (h_integral_powers p) (h_max_order p) v v1 HM HN HD); try assumption.
  - apply (coefs3_exchanged false (Nx p) (Mx p) (Dx p)); try assumption; [apply Hv|]. intros l j Hl Hj. now apply (bank_same_kernel sph false).
  - apply Hv.
  - intros l j Hl Hj. now apply (bank_same_kernel sph true).
Qed.
Print Assumptions C101_rotation.

(** The harmonics of degrees 0 and 1, up to a factor per degree. *)
Definition sph1 (m l : Z) (az po : R) : C :=
  if l =? 0 then RtoC 1 else if l =? 1 then
    if m =? 0 then RtoC (cos po) else if m =? 1 then Cmult (RtoC (sin po / sqrt 2)) (cos az, sin az) else Cmult (RtoC (sin po / sqrt 2)) (cos az, - sin az)%R
  else RtoC 0.
Lemma sph1_addition : addition_theorem sph1.
Proof.
  intros [|[|l]].
  - exists (fun _ => RtoC 1). intros az po az' po' _ _. cbn. unfold RtoC, Cmult, Cplus, Cconj; cbn [fst snd]. f_equal; ring.
  - exists RtoC. intros az po az' po' _ _. cbn -[sqrt]. rewrite cos_minus. assert (Q : (sqrt 2 * sqrt 2 = 2)%R) by (apply sqrt_sqrt; lra). assert (P : (0 < sqrt 2)%R) by (apply sqrt_lt_R0; lra).
    assert (Q' : (/ sqrt 2 * / sqrt 2 = / 2)%R) by (rewrite <- Rinv_mult, Q; reflexivity).
    unfold RtoC, Cmult, Cplus, Cconj, Rdiv; cbn [fst snd]. f_equal; [|ring].
    transitivity (sin po * sin po' * (2 * (/ sqrt 2 * / sqrt 2)) * (cos az * cos az' + sin az * sin az') + cos po * cos po')%R; [ring|]. rewrite Q'. field.
  - exists (fun _ => RtoC 0). intros az po az' po' _ _. apply csum_0. intros i _. unfold sph1. destruct (Z.eqb_spec (Z.of_nat (S (S l))) 0); [lia|]. destruct (Z.eqb_spec (Z.of_nat (S (S l))) 1); [lia|]. ring.
Qed.
Example C101_instance : exists p x x' x'' o o' o'' y, valid3 p /\ h_rotation_covariant p = true /\ addition_theorem sph1 /\
  new3 sph1 p = Ok o /\ new3 sph1 (with_shape p (h_N p) (h_M p) (h_O p)) = Ok o' /\ new3 sph1 (with_shape p (h_N p) (h_O p) (h_M p)) = Ok o'' /\
  nd_shape x = [2; 3; 1]%nat /\ nd_shape x' = [3; 2; 1]%nat /\ nd_shape x'' = [3; 1; 2]%nat /\ nd_data x = map (fun n => RtoC (INR n)) [1; 2; 3; 4; 5; 6]%nat /\ nd_data x' = map (fun n => RtoC (INR n)) [1; 4; 2; 5; 3; 6]%nat /\
  numpy_scattering3 o x = Ok y /\ numpy_scattering3 o' x' = Ok y /\ numpy_scattering3 o'' x'' = Ok y /\ nd_shape y = [3; 2; 2]%nat.
Proof.
  pose (p := mk_params3 1 2 3 1 1 1 2 true "integral" [1%R; 2%R]).
  pose (x := mk_nd Real [2; 3; 1]%nat (map (fun n => RtoC (INR n)) [1; 2; 3; 4; 5; 6]%nat)). pose (x' := mk_nd Real [3; 2; 1]%nat (map (fun n => RtoC (INR n)) [1; 4; 2; 5; 3; 6]%nat)). pose (x'' := mk_nd Real [3; 1; 2]%nat (map (fun n => RtoC (INR n)) [1; 4; 2; 5; 3; 6]%nat)).
  assert (Hv : valid3 p) by (unfold valid3; cbn; repeat split; try lia; [lra|discriminate]).
  assert (Hv' : valid3 (with_shape p 3 2 1)) by (unfold valid3; cbn; repeat split; try lia; [lra|discriminate]).
  assert (Hv'' : valid3 (with_shape p 3 1 2)) by (unfold valid3; cbn; repeat split; try lia; [lra|discriminate]).
  assert (Hx : input3 p [] x) by (repeat split; cbn; lia). assert (Hx' : input3 (with_shape p 3 2 1) [] x') by (repeat split; cbn; lia). assert (Hx'' : input3 (with_shape p 3 1 2) [] x'') by (repeat split; cbn; lia).
  pose proof (new3_ok sph1 p Hv) as Hn. pose proof (new3_ok sph1 _ Hv') as Hn'. pose proof (new3_ok sph1 _ Hv'') as Hn''.
  destruct (C101_first_axes sph1 numpy_scattering3 p [] x x' _ _ sph1_addition (or_introl eq_refl) Hv eq_refl Hn Hn' Hx Hx') as (y & Hy & Hy').
  { intros b i j k Hb Hi Hj Hk. cbn in Hb, Hi, Hj, Hk. destruct b as [|b]; [|lia]. destruct k as [|k]; [|lia]. destruct i as [|[|i]]; [| |lia]; (destruct j as [|[|[|j]]]; [| | |lia]); reflexivity. }
  destruct (C101_rotation sph1 numpy_scattering3 p [] x x'' _ _ sph1_addition (or_introl eq_refl) Hv eq_refl Hn Hn'' Hx Hx'') as (y2 & Hy2 & Hy'').
  { intros b i j k Hb Hi Hj Hk. cbn in Hb, Hi, Hj, Hk. destruct b as [|b]; [|lia]. destruct k as [|k]; [|lia]. destruct i as [|[|i]]; [| |lia]; (destruct j as [|[|[|j]]]; [| | |lia]); reflexivity. }
  pose proof (eq_trans (eq_sym Hy) Hy2) as E. injection E as <-.
  exists p, x, x', x''. do 4 eexists. split; [exact Hv|]. split; [reflexivity|]. split; [exact sph1_addition|]. split; [exact Hn|]. split; [exact Hn'|]. split; [exact Hn''|]. do 5 (split; [reflexivity|]).
  split; [exact Hy|]. split; [exact Hy'|]. split; [exact Hy''|].
  pose proof (runs3_of numpy_scattering3 p _ (gaussian_filter_bank 2 3 1 2 1) [] x (or_introl eq_refl) Hv (bank_ready sph1 2 3 1 1 1 1) Hx) as R. pose proof (eq_trans (eq_sym Hy) R) as E. injection E as ->. reflexivity.
Qed.
