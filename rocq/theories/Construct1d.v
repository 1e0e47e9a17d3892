(** The Scattering1D objects built with the real-number filter formulas. *)
From Coq Require Import String Reals ZArith QArith List Bool Lia Lra.
From Coquelicot Require Import Complex.
From Verif Require Import Base BaseProofs NdArray Backend Core1d Utils1d Utils1dProofs Frontend1d Spec1d Core1dProofs
  Frontend1dProofs NdProofs Rows1d FrontRows Factory1d FactoryProofs ComplexOps FilterBank1d FilterBank1dProofs.
Import ListNotations.
Local Open Scope Z_scope.
Local Open Scope res_scope.

(** Scattering1D(J, shape, Q, T, stride, max_order, oversampling, out_type) with the NumPy frontend. *)
Notation Scattering1D := (new_scattering1d complex_ops formulas1d).
Notation np := (numpy_backend complex_ops).

Lemma complex_ops_ok : ops_ok complex_ops.
Proof. split; intros l; cbn; unfold dft, idft; now rewrite map_length, seq_length. Qed.

Lemma new_inv {K P} (o : ops K) (F : formulas K P) support p out s : new_scattering1d o F support p out = Ok s ->
  exists b Qs T l2T phi psi1s psi2s, build support p = Ok b /\ Q_of (p_Q p) = Ok Qs /\
    T_of (p_T p) (p_J p) (b_N b) = Ok T /\ log2_T_of (p_T p) (p_J p) (b_N b) = Ok l2T /\
    filter_factory o F (Z.to_nat (b_Npad b)) (p_J p) Qs T l2T = Ok (phi, [psi1s; psi2s]) /\
    check_filterbanks F psi1s psi2s = Ok tt /\
    s = {| s_phi := phi; s_psi1 := psi1s; s_psi2 := psi2s; s_max_order := p_max_order p;
            s_out_type := out; s_oversampling := p_oversampling p;
            s_pad_left := b_left b; s_pad_right := b_right b;
            s_ind_start := b_start b; s_ind_end := b_end b;
            s_log2_stride := log2_stride_of (b_stride b) (p_T p) (p_J p) (b_N b);
            s_average := average_of (p_T p) (p_J p) (b_N b) |}.
Proof.
  intros H. unfold new_scattering1d in H. inv_bind H. rename v into b. inv_bind H. rename v into Qs.
  inv_bind H. rename v into T. inv_bind H. rename v into l2T. inv_bind H. destruct v as [phi psis].
  destruct psis as [|psi1s [|psi2s [|]]]; try discriminate.
  inv_bind H. destruct v. injection H; intros <-.
  exists b, Qs, T, l2T, phi, psi1s, psi2s. repeat split; assumption.
Qed.

(** The wavelets of a layer are those of the generator, in order. *)
Lemma layer_bank {K P} (o : ops K) (F : formulas K P) N l2T pj bank psis :
  mapM (make_psi o F N l2T pj) bank = Ok psis ->
  map (fun f => (f_xi f, f_sigma f)) psis = bank /\ Forall (fun f => f_j f = fo_j F (f_xi f) (f_sigma f)) psis.
Proof.
  intros H. apply mapM_ok in H. induction H as [|[xi s] f bank psis E H IH]; [split; constructor|].
  unfold make_psi in E. inv_bind E. injection E; intros <-. destruct IH as [IH1 IH2]. split.
  - cbn [map f_xi f_sigma]. now rewrite IH1.
  - constructor; [reflexivity|assumption].
Qed.

Definition params_of {W} (f : Core1d.filter W R) : R * R := (f_xi f, f_sigma f).
Lemma factory_banks N J q1 q2 T l2T phi psi1s psi2s :
  filter_factory complex_ops formulas1d N J [QI q1; QI q2] T l2T = Ok (phi, [psi1s; psi2s]) ->
  map params_of psi1s = anden_list J q1 sigma0 r_psi /\ map params_of psi2s = anden_list J q2 sigma0 r_psi /\
  Forall (fun f => f_j f = scale (f_xi f) (f_sigma f)) psi1s /\
  Forall (fun f => f_j f = scale (f_xi f) (f_sigma f)) psi2s.
Proof.
  intros H. apply factory_inv in H. destruct H as (E1 & E2 & _).
  apply layer_bank in E1, E2. destruct E1 as [A1 A2], E2 as [B1 B2]. repeat split; assumption.
Qed.

Lemma second_assertion J q1 q2 a b : 0 <= J -> 1 <= q2 <= q1 ->
  In a (anden_list J q1 sigma0 r_psi) -> In b (anden_list J q2 sigma0 r_psi) ->
  scale (fst a) (snd a) < scale (fst b) (snd b) -> (fst b < fst a)%R.
Proof.
  intros HJ Hq Ha Hb Hs.
  pose proof (anden_elem J q1 _ _ HJ ltac:(lia) (anden_list_ok J q1 HJ ltac:(lia)) Ha) as [Xa Sa].
  pose proof (anden_elem J q2 _ _ HJ ltac:(lia) (anden_list_ok J q2 HJ ltac:(lia)) Hb) as [Xb Sb].
  apply Rnot_le_lt. intros Hle. rewrite Sa, Sb in Hs.
  pose proof (rho_mono q2 q1 ltac:(lia)) as Hr. pose proof (rho_pos q1 ltac:(lia)) as Hp.
  assert (scale (fst b) (bandwidth J q2 (fst b)) <= scale (fst a) (bandwidth J q1 (fst a))); [|lia].
  apply scale_anti; [lra|]. split; [now apply bandwidth_pos|]. unfold bandwidth. apply Rle_max_compat_r. nra.
Qed.

Lemma check_ok N J q1 q2 T l2T phi psi1s psi2s : 0 <= J -> 1 <= q2 <= q1 ->
  filter_factory complex_ops formulas1d N J [QI q1; QI q2] T l2T = Ok (phi, [psi1s; psi2s]) ->
  check_filterbanks formulas1d psi1s psi2s = Ok tt.
Proof.
  intros HJ Hq H. apply factory_banks in H. destruct H as (B1 & B2 & J1 & J2).
  rewrite Forall_forall in J1, J2. unfold check_filterbanks.
  replace (forallb _ psi1s) with true.
  - replace (forallb _ _) with true; [reflexivity|]. symmetry. apply forallb_forall. intros [f1 f2] Hf.
    apply filter_In in Hf. cbn [fst snd] in Hf. destruct Hf as [Hf Hj]. apply Z.ltb_lt in Hj.
    apply in_prod_iff in Hf. destruct Hf as [Hf1 Hf2]. cbn [fst snd fo_gt formulas1d].
    rewrite (J1 f1 Hf1), (J2 f2 Hf2) in Hj.
    pose proof (in_map params_of _ _ Hf1) as I1. pose proof (in_map params_of _ _ Hf2) as I2. rewrite B1 in I1. rewrite B2 in I2.
    destruct (Rlt_dec (f_xi f2) (f_xi f1)) as [|Hn]; [reflexivity|exfalso]. apply Hn.
    exact (second_assertion J q1 q2 _ _ HJ Hq I1 I2 Hj).
  - symmetry. apply forallb_forall. intros f Hf. cbn [fo_below_nyquist formulas1d].
    pose proof (in_map params_of _ _ Hf) as I1. rewrite B1 in I1. rewrite (J1 f Hf).
    pose proof (anden_elem J q1 _ _ HJ ltac:(lia) (anden_list_ok J q1 HJ ltac:(lia)) I1) as [Xa Sa]. cbn [fst snd params_of] in *.
    destruct Rlt_dec as [|Hn]; [reflexivity|exfalso]. apply Hn. apply below_nyquist; [exact Xa|].
    rewrite Sa. now apply bandwidth_pos.
Qed.

(** The constructor succeeds when the parameters pass their own checks and the averaging scale fits. *)
Theorem new_total support p out b q1 q2 l2T :
  (forall n t, 0 <= support n t) -> 1 <= b_N b ->
  build support p = Ok b -> 0 <= p_J p -> Q_of (p_Q p) = Ok [QI q1; QI q2] -> 1 <= q2 <= q1 ->
  log2_T_of (p_T p) (p_J p) (b_N b) = Ok l2T -> 2 ^ Z.max l2T (p_J p - 2) <= b_Npad b ->
  exists s, Scattering1D support p out = Ok s.
Proof.
  intros Hsup HN Hb HJ EQ Hq ET Hfit.
  destruct (build_plan support p b Hsup Hb HN) as ((k & Hk & Epow) & B1 & B2 & B3 & B4 & B5 & B6 & B7).
  unfold new_scattering1d. rewrite Hb. cbn [bind]. rewrite EQ. cbn [bind].
  unfold log2_T_of in ET. destruct (T_of (p_T p) (p_J p) (b_N b)) as [T|] eqn:ET'; [|discriminate].
  cbn [bind] in ET. injection ET; intros El2T.
  assert (HT : (1 <= T)%Q).
  { unfold T_of in ET'. destruct (parse_T _ _ _) as [[T' a']|] eqn:Ep; [|discriminate]. cbn in ET'. injection ET'; intros <-.
    apply (parse_T_ge1 _ _ _ _ _ HJ Ep). }
  pose proof (log2_floor_spec T (p_J p) HT) as (Hl2T & _). rewrite El2T in Hl2T.
  unfold log2_T_of. rewrite ET'. cbn [bind]. rewrite El2T.
  destruct (factory_total complex_ops formulas1d formulas1d_sane (Z.to_nat (b_Npad b)) (p_J p) q1 q2 T l2T)
    as (phi & psi1s & psi2s & EF); [assumption|lia|lia|assumption| |].
  - intros i Hi.
    assert (i <= k).
    { destruct (Z.le_gt_cases i k) as [L|L]; [exact L|exfalso].
      assert (2 ^ k < 2 ^ Z.max l2T (p_J p - 2)) by (apply Z.pow_lt_mono_r; lia). lia. }
    exists (p2 (k - i)). rewrite Epow. rewrite <- (Nat2Z.id (p2 (k - i) * p2 i)). f_equal.
    rewrite Nat2Z.inj_mul, !p2_Z by lia. rewrite <- Z.pow_add_r by lia. f_equal. lia.
  - rewrite EF. cbn [bind]. rewrite (check_ok _ _ _ _ _ _ _ _ _ HJ Hq EF). cbn [bind]. eauto.
Qed.

(** The generator facts transported to the first-order wavelets of an object. *)
Lemma new_banks support p out s : Scattering1D support p out = Ok s -> forall q1 q2,
  Q_of (p_Q p) = Ok [QI q1; QI q2] ->
  map params_of (s_psi1 s) = anden_list (p_J p) q1 sigma0 r_psi /\
  map params_of (s_psi2 s) = anden_list (p_J p) q2 sigma0 r_psi /\
  Forall (fun f => f_j f = scale (f_xi f) (f_sigma f)) (s_psi1 s) /\
  Forall (fun f => f_j f = scale (f_xi f) (f_sigma f)) (s_psi2 s).
Proof.
  intros H q1 q2 EQ. apply new_inv in H. destruct H as (b & Qs & T & l2T & phi & psi1s & psi2s & _ & EQ' & _ & _ & EF & _ & ->).
  rewrite EQ in EQ'. injection EQ'; intros <-. cbn [s_psi1 s_psi2]. eapply factory_banks; eassumption.
Qed.

(** Successful runs looked up the second-order filters at the resolution of U_1. *)
Lemma lookup2_of_run {X W P} (be : backend X W) U (phi : Core1d.filter W P) psi1s psi2s ls al gen :
  scattering1d be U phi [psi1s; psi2s] ls al = Ok gen ->
  forall f1 f2, In f1 psi1s -> In f2 psi2s -> f_j f1 < f_j f2 ->
  exists w, py_index (f_levels f2) (if al then Z.min (f_j f1) ls else f_j f1) = Ok w.
Proof.
  intros Hrun f1 f2 Hf1 Hf2 Hlt. unfold scattering1d in Hrun.
  inv_bind Hrun. inv_bind Hrun. inv_bind Hrun. inv_bind Hrun.
  cbn in E1. injection E1; intros <-. cbn [nth_error] in E2. apply mapM_ok in E2.
  apply In_nth_error in Hf1 as (n1 & Hn1). pose proof (proj2 (In_enumerate psi1s n1 f1) Hn1) as He.
  destruct (Forall2_In_l _ _ _ _ E2 He) as (y & _ & Ey).
  apply In_nth_error in Hf2 as (n2 & Hn2). pose proof (proj2 (In_enumerate psi2s n2 f2) Hn2) as He2.
  unfold order1 in Ey. inv_bind Ey. inv_bind Ey. inv_bind Ey. inv_bind Ey. clear Ey. rename E6 into Em.
  apply mapM_ok in Em. destruct (Forall2_In_l _ _ _ _ Em He2) as (y2 & _ & Ey2).
  unfold order2 in Ey2. rewrite (proj2 (Z.ltb_lt _ _) Hlt) in Ey2. inv_bind Ey2. eauto.
Qed.

(** The metadata run can only fail with IndexError. *)
Lemma mapM_err {A B} (f : A -> res B) l e : mapM f l = Err e -> exists x, In x l /\ f x = Err e.
Proof.
  induction l as [|x l IH]; cbn [mapM]; [discriminate|]. intros H.
  destruct (f x) as [y|e'] eqn:E; cbn [bind] in H.
  - destruct (mapM f l) as [r|e'] eqn:E'; cbn [bind] in H; [discriminate|]. injection H; intros ->.
    destruct (IH eq_refl) as (z & Hz & Ez). exists z. split; [now right|assumption].
  - injection H; intros ->. exists x. split; [now left|assumption].
Qed.
Lemma py_index_err {A} (l : list A) i e : py_index l i = Err e -> e = IndexError.
Proof. unfold py_index. destruct (_ <? 0); [congruence|]. destruct (nth_error _ _); congruence. Qed.
Lemma dry_err {W P} (phi : Core1d.filter W P) psis ls al e :
  scattering1d (dry_backend W) tt phi psis ls al = Err e -> e = IndexError.
Proof.
  assert (B : forall A B (m : res A) (f : A -> res B) e, (x <- m ;; f x) = Err e ->
            m = Err e \/ exists x, m = Ok x /\ f x = Err e).
  { intros A B m f e' H. destruct m; cbn [bind] in H; [right; eauto|left; congruence]. }
  intros H. unfold scattering1d in H. cbn [be_rfft dry_backend] in H. cbn [bind] in H.
  apply B in H as [H|(p0 & _ & H)].
  { unfold order0 in H. destruct al; [|discriminate]. apply B in H as [H|(w & _ & H)]; [now apply py_index_err in H|discriminate]. }
  apply B in H as [H|(psi1 & _ & H)]; [now apply py_index_err in H|].
  apply B in H as [H|(l & _ & H)]; [|discriminate].
  apply mapM_err in H as ([n1 f1] & _ & H). unfold order1, order1_modulus in H.
  apply B in H as [H|(u & _ & H)].
  { apply B in H as [H|(w & _ & H)]; [now apply py_index_err in H|discriminate]. }
  apply B in H as [H|(u2 & _ & H)]; [destruct (al || _); discriminate|].
  apply B in H as [H|(p1 & _ & H)].
  { destruct al; [|discriminate]. apply B in H as [H|(w & _ & H)]; [now apply py_index_err in H|discriminate]. }
  apply B in H as [H|(ps & _ & H)]; [|discriminate].
  destruct (nth_error psis 1) as [psi2|]; [|discriminate].
  apply mapM_err in H as ([n2 f2] & _ & H). unfold order2 in H.
  destruct (_ <? _); [|discriminate]. apply B in H as [H|(w & _ & H)]; [now apply py_index_err in H|].
  cbn [be_cdgmm be_subsample be_ifft be_modulus be_rfft be_irfft dry_backend bind] in H.
  destruct al; [|discriminate]. apply B in H as [H|(w2 & _ & H)]; [now apply py_index_err in H|discriminate].
Qed.

(** Number of levels tabulated for a second-order wavelet. *)
Lemma psi2_levels N J q1 q2 T l2T phi psi1s psi2s f :
  filter_factory complex_ops formulas1d N J [QI q1; QI q2] T l2T = Ok (phi, [psi1s; psi2s]) -> In f psi2s ->
  Z.of_nat (List.length (f_levels f)) <= Z.max 1 (Z.min (f_j f) (1 + l2T)).
Proof.
  intros H Hf. apply factory_inv in H. destruct H as (E1 & E2 & _).
  destruct (layer_In _ _ _ _ _ _ _ _ E2 Hf) as (xi & s & _ & _ & _ & _ & El).
  unfold levels_upto in El. inv_bind El. injection El; intros <-. apply mapM_length in E.
  unfold zrange in E. rewrite map_length, seq_length in E. cbn [List.length]. lia.
Qed.
