(** Properties C09-C14 and the refuted part of C18: the filter bank of Scattering1D in exact arithmetic. *)
From Coq Require Import String Reals ZArith QArith List Bool Lia Lra.
From Coquelicot Require Import Complex.
From Verif Require Import Base BaseProofs NdArray Backend Core1d Utils1d Utils1dProofs Frontend1d Spec1d Core1dProofs
  Frontend1dProofs NdProofs Rows1d FrontRows Factory1d FactoryProofs ComplexOps FilterBank1d FilterBank1dProofs Construct1d Shape1d.
Import ListNotations.
Local Open Scope Z_scope.

(** C09.  [anden J Q s r l]: the generator of filter_bank.py terminates and yields [l]. *)
Theorem C09_generator : forall J Q, 0 <= J -> 1 <= Q ->
  exists l, anden J Q sigma0 r_psi l /\ (forall l', anden J Q sigma0 r_psi l' -> l' = l) /\
  (forall xi sigma, In (xi, sigma) l ->
     (0 < xi < 1 / 2)%R /\ (sigma0 / powerRZ 2 J <= sigma)%R /\
     sigma = Rmax (compute_sigma_psi xi Q r_psi) (sigma0 / powerRZ 2 J)) /\
  (forall n m xi sigma xi' sigma', (n < m)%nat -> nth_error l n = Some (xi, sigma) -> nth_error l m = Some (xi', sigma') ->
     (xi' < xi)%R /\ (sigma' <= sigma)%R).
Proof.
  intros J Q HJ HQ. exists (anden_list J Q sigma0 r_psi). pose proof (anden_list_ok J Q HJ HQ) as H.
  split; [exact H|]. split; [intros l' Hl'; eapply anden_unique; eassumption|]. split.
  - intros xi sigma Hin. destruct (anden_elem J Q _ _ HJ HQ H Hin) as [Hx Hs]. cbn [fst snd] in *.
    rewrite sigma_rho by assumption. fold (smin J). split; [exact Hx|]. split; [rewrite Hs; apply Rmax_r|exact Hs].
  - intros n m xi sigma xi' sigma' Hnm Hn Hm.
    pose proof (anden_decreasing J Q _ HJ HQ H n m _ _ Hnm Hn Hm) as D. cbn [fst] in D. split; [exact D|].
    destruct (anden_elem J Q _ _ HJ HQ H (nth_error_In _ _ Hn)) as [Hx Hs].
    destruct (anden_elem J Q _ _ HJ HQ H (nth_error_In _ _ Hm)) as [Hx' Hs']. cbn [fst snd] in *.
    rewrite Hs, Hs'. unfold bandwidth. apply Rle_max_compat_r. pose proof (rho_pos Q HQ). nra.
Qed.
Print Assumptions C09_generator.
(** For J = 2, Q = 1: three wavelets. *)
Example C09_instance : exists s0 s1 s2,
  anden 2 1 sigma0 r_psi [(35 / 100, s0); (35 / 200, s1); (35 / 400, s2)]%R.
Proof.
  pose proof (anden_Q1 2 ltac:(lia)) as H. change (S (Z.to_nat 2)) with 3%nat in H. cbn [seq map] in H.
  replace (35 / 100 / 2 ^ 0)%R with (35 / 100)%R in H by (simpl; lra).
  replace (35 / 100 / 2 ^ 1)%R with (35 / 200)%R in H by (simpl; lra).
  replace (35 / 100 / 2 ^ 2)%R with (35 / 400)%R in H by (simpl; lra). eauto.
Qed.

(** C10.  [j] is the largest integer with min(|xi| + alpha sigma, 1/2) <= 2^-(j+1). *)
Theorem C10_scale : forall xi sigma a, (0 < sigma)%R -> (0 < a)%R ->
  let b := Rmin (Rabs xi + a * sigma) (1 / 2) in
  let j := get_max_dyadic_subsampling xi sigma a in
  (b <= powerRZ 2 (- (j + 1)))%R /\
  (forall m, (b <= powerRZ 2 (- (m + 1)))%R -> m <= j) /\
  0 <= j /\
  get_max_dyadic_subsampling (- xi) sigma a = j.
Proof.
  intros xi sigma a Hs Ha b j. split; [|split; [|split]].
  - apply (max_dyadic_spec xi sigma a j); [assumption..|]. apply Z.le_refl.
  - intros m Hm. apply max_dyadic_spec; assumption.
  - apply max_dyadic_spec; [assumption..|]. simpl. pose proof (Rmin_r (Rabs xi + a * sigma) (1 / 2)). lra.
  - unfold get_max_dyadic_subsampling. now rewrite Rabs_Ropp.
Qed.
Print Assumptions C10_scale.
Example C10_instance : get_max_dyadic_subsampling 0 (1 / 64) 5 = 2.
Proof.
  assert (E : Rmin (Rabs 0 + 5 * (1 / 64)) (1 / 2) = (5 / 64)%R) by (rewrite Rabs_R0, Rmin_left; lra).
  apply Z.le_antisymm.
  - apply Z.le_ngt. intros Hj. assert (H3 : 3 <= get_max_dyadic_subsampling 0 (1 / 64) 5) by lia.
    apply max_dyadic_spec in H3; [|lra..]. rewrite E in H3. simpl in H3. lra.
  - apply (C10_scale 0 (1 / 64) 5); [lra..|]. rewrite E. simpl. lra.
Qed.
(** The strict inequality of the docstring can fail: here the bound is an equality. *)
Theorem C10_docstring_strict_refuted : exists xi sigma a, (0 < sigma)%R /\ (0 < a)%R /\
  Rmin (Rabs xi + a * sigma) (1 / 2) = powerRZ 2 (- (get_max_dyadic_subsampling xi sigma a + 1)).
Proof.
  exists (1 / 8)%R, (1 / 40)%R, 5%R. split; [lra|]. split; [lra|].
  assert (E : Rmin (Rabs (1 / 8) + 5 * (1 / 40)) (1 / 2) = (1 / 4)%R).
  { rewrite Rabs_pos_eq by lra. replace (1 / 8 + 5 * (1 / 40))%R with (1 / 4)%R by lra. apply Rmin_left. lra. }
  assert (J : get_max_dyadic_subsampling (1 / 8) (1 / 40) 5 = 1).
  { apply Z.le_antisymm.
    - apply Z.le_ngt. intros Hc. assert (H2 : 2 <= get_max_dyadic_subsampling (1 / 8) (1 / 40) 5) by lia.
      apply max_dyadic_spec in H2; [|lra..]. rewrite E in H2. simpl in H2. lra.
    - apply max_dyadic_spec; [lra..|]. rewrite E. simpl. lra. }
  rewrite J, E. simpl. lra.
Qed.
Print Assumptions C10_docstring_strict_refuted.

(** C11, the part that holds: quality factors in non-increasing order.  The two inequalities, and the
    model of the assertions themselves.  Missing: Q1 < Q2, refuted below. *)
Theorem C11_assertions_partial : forall J q1 q2 T l2T N phi psi1s psi2s, 0 <= J -> 1 <= q2 <= q1 ->
  filter_factory complex_ops formulas1d N J [QI q1; QI q2] T l2T = Ok (phi, [psi1s; psi2s]) ->
  check_filterbanks formulas1d psi1s psi2s = Ok tt /\
  (forall f1, In f1 psi1s -> (f_xi f1 < 1 / 2 / powerRZ 2 (f_j f1))%R) /\
  (forall f1 f2, In f1 psi1s -> In f2 psi2s -> f_j f1 < f_j f2 -> (f_xi f2 < f_xi f1)%R).
Proof.
  intros J q1 q2 T l2T N phi psi1s psi2s HJ Hq H.
  pose proof (check_ok _ _ _ _ _ _ _ _ _ HJ Hq H) as HC. split; [exact HC|].
  apply factory_banks in H. destruct H as (B1 & B2 & J1 & J2). rewrite Forall_forall in J1, J2.
  split.
  - intros f1 Hf1. rewrite (J1 f1 Hf1). pose proof (in_map params_of _ _ Hf1) as I1. rewrite B1 in I1.
    destruct (anden_elem J q1 _ _ HJ ltac:(lia) (anden_list_ok J q1 HJ ltac:(lia)) I1) as [Hx Hs]. cbn [fst snd params_of] in *.
    apply below_nyquist; [exact Hx|]. rewrite Hs. now apply bandwidth_pos.
  - intros f1 f2 Hf1 Hf2 Hj. rewrite (J1 f1 Hf1), (J2 f2 Hf2) in Hj.
    pose proof (in_map params_of _ _ Hf1) as I1. rewrite B1 in I1.
    pose proof (in_map params_of _ _ Hf2) as I2. rewrite B2 in I2.
    exact (second_assertion J q1 q2 _ _ HJ Hq I1 I2 Hj).
Qed.
Print Assumptions C11_assertions_partial.

(** Parameters of the refutations and instances below. *)
Definition mk_params (J N : Z) (Q : qval) (T : tval) (stride : sval) (mo : Z) : params :=
  {| p_J := J; p_shape := ShInt N; p_Q := Q; p_T := T; p_stride := stride; p_max_order := mo; p_oversampling := OInt 0 |}.

(** C11, refuted for Q = (1, 8): Q accepts it, everything else is built, and the constructor raises
    AssertionError. *)
Theorem C11_second_assertion_refuted : forall support, (forall n t, 0 <= support n t) ->
  let p := mk_params 4 64 (QTuple [QI 1; QI 8]) TNone SNone 2 in
  Q_of (p_Q p) = Ok [QI 1; QI 8] /\ (exists b, build support p = Ok b) /\
  forall out, Scattering1D support p out = Err AssertionError.
Proof.
  intros support Hsup p. split; [reflexivity|].
  destruct (build_total support p 64 SNone 16%Q) as [b Hb]; [reflexivity|lia|apply Hsup|reflexivity|reflexivity|].
  split; [eauto|]. intros out. unfold new_scattering1d. rewrite Hb. cbn [bind].
  assert (HbN : b_N b = 64).
  { destruct (build_inv _ _ _ Hb) as (st & T & l & r & EN & _). cbn in EN. congruence. }
  destruct (build_plan support p b Hsup Hb) as ((k & Hk & Epow) & B1 & B2 & B3 & B4 & B5 & B6 & B7); [lia|].
  rewrite HbN in *.
  destruct (factory_total complex_ops formulas1d formulas1d_sane (Z.to_nat (b_Npad b)) 4 1 8 16%Q 4)
    as (phi & psi1s & psi2s & EF); [lia|lia|lia|lia| |].
  - intros i Hi. assert (i <= k).
    { destruct (Z.le_gt_cases i k) as [L|L]; [exact L|exfalso].
      assert (2 ^ k < 2 ^ 4) by (apply Z.pow_lt_mono_r; lia). lia. }
    exists (p2 (k - i)). rewrite Epow. rewrite <- (Nat2Z.id (p2 (k - i) * p2 i)). f_equal.
    rewrite Nat2Z.inj_mul, !p2_Z by lia. rewrite <- Z.pow_add_r by lia. f_equal. lia.
  - change (Q_of (p_Q p)) with (Ok [QI 1; QI 8]). change (T_of (p_T p) (p_J p) 64) with (Ok 16%Q).
    change (log2_T_of (p_T p) (p_J p) 64) with (Ok 4). cbn [bind]. change (p_J p) with 4. rewrite EF. cbn [bind].
    apply factory_banks in EF. destruct EF as (P1 & P2 & J1 & J2). rewrite Forall_forall in J1, J2.
    assert (I1 : In (35 / 100 / 2 ^ 2, rho 1 * (35 / 100 / 2 ^ 2))%R (map params_of psi1s)).
    { rewrite P1. rewrite (anden_unique 4 1 sigma0 r_psi _ _ (anden_list_ok 4 1 ltac:(lia) ltac:(lia)) (anden_Q1 4 ltac:(lia))).
      apply in_map_iff. exists 2%nat. split; [reflexivity|]. apply in_seq. cbn. lia. }
    apply in_map_iff in I1 as (f1 & E1 & I1). injection E1 as E1a E1b.
    destruct (bad_pair _ (anden_list_ok 4 8 ltac:(lia) ltac:(lia))) as (a & Ia & Ha1 & Ha2).
    rewrite <- P2 in Ia. apply in_map_iff in Ia as (f2 & E2 & I2).
    assert (Hj1 : f_j f1 = 0). { rewrite (J1 f1 I1), E1a, E1b. pose proof (scale_Q1 2) as QQ. exact QQ. }
    assert (Hj2 : 1 <= f_j f2) by (rewrite (J2 f2 I2); rewrite <- E2 in Ha2; exact Ha2).
    unfold check_filterbanks.
    destruct (forallb (fun f => fo_below_nyquist formulas1d (f_xi f) (f_j f)) psi1s); [|reflexivity].
    replace (forallb _ _) with false; [reflexivity|]. symmetry. apply not_true_iff_false. rewrite forallb_forall.
    intros HA. specialize (HA (f1, f2)). cbn [fst snd fo_gt formulas1d] in HA.
    destruct (Rlt_dec (f_xi f2) (f_xi f1)) as [L|L].
    + rewrite <- E2 in Ha1. cbn [fst params_of] in Ha1. rewrite E1a in L. simpl in L. lra.
    + discriminate HA. apply filter_In. split; [now apply in_prod|]. apply Z.ltb_lt. cbn [fst snd]. lia.
Qed.
Print Assumptions C11_second_assertion_refuted.

(** C12.  Scales along the filterbank of a constructed object. *)
Theorem C12_scales_sorted_bounded : forall support p out s q1 q2,
  Scattering1D support p out = Ok s -> 0 <= p_J p -> Q_of (p_Q p) = Ok [QI q1; QI q2] -> 1 <= q1 ->
  (forall f, In f (s_psi1 s) -> 0 <= f_j f <= Z.max (p_J p - 1) 0) /\
  (forall n m f g, (n < m)%nat -> nth_error (s_psi1 s) n = Some f -> nth_error (s_psi1 s) m = Some g -> f_j f <= f_j g) /\
  (forall j2, exists n1_max, (n1_max <= List.length (s_psi1 s))%nat /\
     forall n1 f, nth_error (s_psi1 s) n1 = Some f -> (f_j f < j2 <-> (n1 < n1_max)%nat)).
Proof.
  intros support p out s q1 q2 H HJ EQ Hq. destruct (new_banks _ _ _ _ H _ _ EQ) as (P1 & _ & J1 & _).
  rewrite Forall_forall in J1. pose proof (anden_list_ok (p_J p) q1 HJ Hq) as HA.
  assert (S1 : forall n m f g, (n < m)%nat -> nth_error (s_psi1 s) n = Some f -> nth_error (s_psi1 s) m = Some g -> f_j f <= f_j g).
  { intros n m f g Hnm Hn Hm. rewrite (J1 f (nth_error_In _ _ Hn)), (J1 g (nth_error_In _ _ Hm)).
    apply (map_nth_error params_of) in Hn, Hm. rewrite P1 in Hn, Hm.
    exact (anden_scale_sorted (p_J p) q1 _ n m _ _ HJ Hq HA Hnm Hn Hm). }
  split; [|split; [exact S1|]].
  - intros f Hf. rewrite (J1 f Hf). pose proof (in_map params_of _ _ Hf) as I1. rewrite P1 in I1.
    destruct (anden_elem _ _ _ _ HJ Hq HA I1) as [Hx Hs]. cbn [fst snd params_of] in *. rewrite Hs.
    split; [apply scale_ge0; [lra|now apply bandwidth_pos]|apply scale_le; lia || lra].
  - intros j2. clear - S1. exists (List.length (List.filter (fun f => f_j f <? j2) (s_psi1 s))).
    split.
    { induction (s_psi1 s) as [|f l IH]; cbn; [lia|]. assert (forall A (P : A -> bool) l, (List.length (List.filter P l) <= List.length l)%nat).
      { clear. intros A P l. induction l as [|a l IH]; cbn; [lia|]. destruct (P a); cbn; lia. }
      destruct (f_j f <? j2); cbn; specialize (H _ (fun f => f_j f <? j2) l); lia. }
    revert S1. generalize (s_psi1 s) as l. induction l as [|g l IH]; intros S1 n1 f Hn; [destruct n1; discriminate|].
    cbn [List.filter]. destruct (Z.ltb_spec (f_j g) j2) as [L|L].
    + cbn [List.length]. destruct n1 as [|n1]; cbn in Hn.
      * injection Hn; intros <-. lia.
      * rewrite <- Nat.succ_lt_mono. apply IH; [|exact Hn]. intros n m f' g' Hnm A B. apply (S1 (S n) (S m)); [lia|exact A|exact B].
    + assert (E : List.filter (fun f => f_j f <? j2) l = []).
      { destruct (List.filter (fun f => f_j f <? j2) l) as [|h r] eqn:E; [reflexivity|exfalso].
        assert (Hin : In h (List.filter (fun f => f_j f <? j2) l)) by (rewrite E; now left).
        apply filter_In in Hin as [Hin Hh]. apply Z.ltb_lt in Hh. apply In_nth_error in Hin as (m & Hm).
        pose proof (S1 0%nat (S m) g h ltac:(lia) eq_refl Hm). lia. }
      rewrite E. cbn [List.length]. split; [|lia]. intros Hf. exfalso.
      destruct n1 as [|n1]; cbn in Hn; [injection Hn; intros <-; lia|].
      pose proof (S1 0%nat (S n1) g f ltac:(lia) eq_refl Hn). lia.
Qed.
Print Assumptions C12_scales_sorted_bounded.

(** C13. *)
Theorem C13_number_of_wavelets : forall support p out s q1 q2,
  Scattering1D support p out = Ok s -> 0 <= p_J p -> Q_of (p_Q p) = Ok [QI q1; QI q2] -> 1 <= q1 ->
  1 <= Z.of_nat (List.length (s_psi1 s)) <= (p_J p + 1) * q1.
Proof.
  intros support p out s q1 q2 H HJ EQ Hq. destruct (new_banks _ _ _ _ H _ _ EQ) as (P1 & _).
  rewrite <- (map_length params_of), P1. apply anden_length; [assumption..|]. now apply anden_list_ok.
Qed.
Print Assumptions C13_number_of_wavelets.

(** Non-vacuity of the theorems on constructed objects: every J >= 0, every Q, every N >= 2^J. *)
Theorem constructor_instance : forall support J N q out, (forall n t, 0 <= support n t) ->
  0 <= J -> 1 <= q -> 2 ^ J <= N ->
  exists s, Scattering1D support (mk_params J N (QInt q) TNone SNone 2) out = Ok s.
Proof.
  intros support J N q out Hsup HJ Hq HN. pose proof (pow2_pos J HJ).
  destruct (build_total support (mk_params J N (QInt q) TNone SNone 2) N SNone (Qpower 2 J)) as [b Hb];
    [reflexivity|lia|apply Hsup|reflexivity|reflexivity|].
  assert (HbN : b_N b = N).
  { destruct (build_inv _ _ _ Hb) as (st & T & l & r & EN & _). cbn in EN. congruence. }
  destruct (build_plan support _ b Hsup Hb) as (_ & B1 & _); [lia|].
  apply (new_total support _ out b q 1 J); try assumption; try lia.
  - cbn [p_Q mk_params]. unfold Q_of. cbn [qval_entries existsb map]. rewrite (proj2 (Qltb_false _ _)); [reflexivity|].
    unfold Qle. cbn. lia.
  - cbn [p_T p_J mk_params]. unfold log2_T_of, T_of. cbn [parse_T bind fst]. now rewrite log2_floor_pow2.
  - cbn [p_J mk_params]. assert (2 ^ Z.max J (J - 2) = 2 ^ J) by (f_equal; lia). lia.
Qed.
Print Assumptions constructor_instance.

(** J = 4, Q = 8, N = 100: an object to which C12, C13 and (with log2_stride = log2_T = 4, local
    averaging) C14 apply. *)
Example C12_C13_C14_instance : exists s,
  Scattering1D (fun _ _ => 30) (mk_params 4 100 (QInt 8) TNone SNone 2) "array" = Ok s /\
  (forall f, In f (s_psi1 s) -> 0 <= f_j f <= 3) /\ 1 <= Z.of_nat (List.length (s_psi1 s)) <= 40 /\
  s_log2_stride s = Ok 4 /\ s_average s = Ok Local.
Proof.
  destruct (constructor_instance (fun _ _ => 30) 4 100 8 "array") as [s Hs]; try (intros; lia).
  exists s. split; [exact Hs|]. split; [|split].
  - apply (C12_scales_sorted_bounded _ _ _ _ 8 1 Hs); cbn; (lia || reflexivity).
  - apply (C13_number_of_wavelets _ _ _ _ 8 1 Hs); cbn; (lia || reflexivity).
  - apply new_inv in Hs. destruct Hs as (b & Qs & T & l & phi & psi1s & psi2s & Hb & _ & _ & _ & _ & _ & ->).
    destruct (build_inv _ _ _ Hb) as (st & T' & l' & r & EN & EO & _ & _ & Eb).
    cbn in EO. injection EO as <-. cbn in EN. injection EN as EN. rewrite Eb. cbn [b_N b_stride s_log2_stride s_average].
    rewrite <- EN. split; reflexivity.
Qed.
Example C11_instance : exists N phi psi1s psi2s,
  filter_factory complex_ops formulas1d N 4 [QI 8; QI 1] 16 4 = Ok (phi, [psi1s; psi2s]) /\ psi1s <> [] /\ psi2s <> [].
Proof.
  destruct (constructor_instance (fun _ _ => 30) 4 100 8 "array") as [s Hs]; try (intros; lia).
  assert (HL : forall s', Scattering1D (fun _ _ => 30) (mk_params 4 100 (QInt 8) TNone SNone 2) "array" = Ok s' -> s_psi1 s' <> [] /\ s_psi2 s' <> []).
  { intros s' H. destruct (new_banks _ _ _ _ H 8 1 eq_refl) as (P1 & P2 & _). cbn [p_J mk_params] in P1, P2.
    pose proof (anden_length 4 8 _ ltac:(lia) ltac:(lia) (anden_list_ok 4 8 ltac:(lia) ltac:(lia))) as L1.
    pose proof (anden_length 4 1 _ ltac:(lia) ltac:(lia) (anden_list_ok 4 1 ltac:(lia) ltac:(lia))) as L2.
    rewrite <- P1, map_length in L1. rewrite <- P2, map_length in L2. split; intros E; rewrite E in *; cbn in *; lia. }
  specialize (HL s Hs). apply new_inv in Hs. destruct Hs as (b & Qs & T & l & phi & psi1s & psi2s & Hb & EQ & ET & El & EF & _ & ->).
  destruct (build_inv _ _ _ Hb) as (st & T' & l' & r & EN & _ & _ & _ & Eb). cbn in EN. injection EN as EN.
  rewrite Eb in ET, El. cbn [b_N] in ET, El. rewrite <- EN in ET, El. cbn in EQ, ET, El. injection EQ as <-. injection El as <-. injection ET as <-.
  exists (Z.to_nat (b_Npad b)), phi, psi1s, psi2s. split; [exact EF|exact HL].
Qed.

(** C14.  Lookups made by the transform of a constructed object, for every pair it traverses, and no
    exception at all on well-formed inputs. *)
Theorem C14_lookups : forall support p out s N q1 q2 ls a l2T,
  (forall n t, 0 <= support n t) -> Scattering1D support p out = Ok s ->
  N_input_of (p_shape p) = Ok N -> 1 <= N -> 0 <= p_J p -> 1 <= p_max_order p <= 2 ->
  Q_of (p_Q p) = Ok [QI q1; QI q2] -> 1 <= q2 <= q1 ->
  s_log2_stride s = Ok ls -> s_average s = Ok a -> log2_T_of (p_T p) (p_J p) N = Ok l2T ->
  (a = Local -> ls <= l2T) -> (a <> Local -> p_oversampling p = OInt 0) ->
  let res j := match a with Local => Z.min j ls | _ => j end in
  (a = Local -> exists w, py_index (f_levels (s_phi s)) 0 = Ok w) /\
  (forall f1, In f1 (s_psi1 s) ->
     (exists w, py_index (f_levels f1) 0 = Ok w) /\
     (a = Local -> exists w, py_index (f_levels (s_phi s)) (res (f_j f1)) = Ok w)) /\
  (p_max_order p = 2 -> forall f1 f2, In f1 (s_psi1 s) -> In f2 (s_psi2 s) -> f_j f1 < f_j f2 ->
     (exists w, py_index (f_levels f2) (res (f_j f1)) = Ok w) /\
     (a = Local -> exists w, py_index (f_levels (s_phi s)) (res (f_j f2)) = Ok w)) /\
  (forall batch x, nd_dtype x = Real -> nd_shape x = batch ++ [Z.to_nat N] -> nd_wf x ->
     exists l, scattering np (with_out s "list") x = Ok (OutList l)).
Proof.
  intros support p out s N q1 q2 ls a l2T Hsup H EN HN HJ Hmo EQ Hq Els Ea ET Hloc Hover res.
  assert (Emo : s_max_order s = p_max_order p).
  { apply new_inv in H. destruct H as (b & Qs & T & l & phi & psi1s & psi2s & H). destruct H as (_ & _ & _ & _ & _ & _ & ->). reflexivity. }
  destruct (new_ready complex_ops formulas1d formulas1d_sane support p out s N q1 q2 ls a l2T) as (l & r & Rd); try assumption.
  pose proof (rd_adm _ _ _ _ _ _ _ Rd) as A.
  assert (Hlev : forall f k n, 0 <= k -> level_ok (K:=C) (P:=R) f k n -> exists w, py_index (f_levels f) k = Ok w).
  { intros f k n Hk (w & Hw & _). exists w. now apply py_index_nonneg. }
  assert (Hls : 0 <= ls) by apply (adm_ls _ _ _ _ _ _ _ A).
  split; [|split; [|split]].
  - intros ->. destruct (adm_phi _ _ _ _ _ _ _ A eq_refl) as [_ L]. eapply Hlev; [lia|exact L].
  - intros f1 Hf1. destruct (adm_psi1 _ _ _ _ _ _ _ A f1 Hf1) as (P1 & P2 & _ & P4).
    split; [eapply Hlev; [lia|exact P2]|]. intros ->. eapply Hlev; [|exact (P4 eq_refl)]. unfold res. lia.
  - intros Hm2 f1 f2 Hf1 Hf2 Hlt. assert (two : (s_max_order s =? 2) = true) by (apply Z.eqb_eq; congruence).
    destruct (adm_psi1 _ _ _ _ _ _ _ A f1 Hf1) as (P1 & _).
    destruct (adm_psi2 _ _ _ _ _ _ _ A two f1 f2 Hf1 Hf2 Hlt) as (P2 & _ & P4).
    split.
    + unfold kk in P2. destruct a; cbn [is_local] in P2; (eapply Hlev; [|exact P2]); unfold res; lia.
    + intros ->. eapply Hlev; [|exact (P4 eq_refl)]. unfold res. lia.
  - intros batch x Hd Hs Hw. destruct (of_rows_intro x batch (Z.to_nat N) Hw Hs) as (rows & Ex & Hr). rewrite Hd in Ex.
    destruct (paths_rows complex_ops complex_ops_ok s _ _ _ _ _ _ Rd batch rows Hr) as (S & ES & _).
    eexists. eapply list_run; [exact Ea|exact Hs|]. rewrite Ex. exact ES.
Qed.
Print Assumptions C14_lookups.

(** C18, the refuted part: for J >= 5 and T = 2 the object is constructed and transforms every input, but
    meta() (hence output_size()) raises IndexError. *)
Theorem C18_meta_total_refuted : forall support J N, (forall n t, 0 <= support n t) ->
  5 <= J -> 2 ^ J <= N ->
  exists s, Scattering1D support (mk_params J N (QInt 1) (TNum 2) SNone 2) "list" = Ok s /\
    meta s = Err IndexError /\ output_size s = Err IndexError /\
    forall batch x, nd_dtype x = Real -> nd_shape x = batch ++ [Z.to_nat N] -> nd_wf x ->
      exists l, scattering np s x = Ok (OutList l).
Proof.
  intros support J N Hsup HJ HN. set (p := mk_params J N (QInt 1) (TNum 2) SNone 2).
  assert (HN32 : 32 <= N) by (assert (2 ^ 5 <= 2 ^ J) by (apply Z.pow_le_mono_r; lia); lia).
  assert (HT : parse_T (TNum 2) J N = Ok (2%Q, Local)).
  { unfold parse_T. rewrite (proj2 (Qltb_false _ _)); [reflexivity|]. unfold Qle. cbn. lia. }
  destruct (build_total support p N SNone 2%Q) as [b Hb]; [reflexivity|lia|apply Hsup|reflexivity| |].
  { cbn [p p_T p_J mk_params]. unfold T_of. rewrite HT. reflexivity. }
  assert (HbN : b_N b = N).
  { destruct (build_inv _ _ _ Hb) as (st & T & l & r & EN & _). cbn in EN. congruence. }
  destruct (build_plan support _ b Hsup Hb) as (_ & B1 & _); [lia|].
  assert (El : log2_T_of (p_T p) (p_J p) N = Ok 1).
  { cbn [p p_T p_J mk_params]. unfold log2_T_of, T_of. rewrite HT. reflexivity. }
  assert (EQ : Q_of (p_Q p) = Ok [QI 1; QI 1]) by reflexivity.
  destruct (new_total support p "list" b 1 1 1) as [s Hs]; try assumption; try lia.
  { cbn [p p_J mk_params]. lia. }
  { rewrite HbN. exact El. }
  { cbn [p p_J mk_params]. assert (2 ^ Z.max 1 (J - 2) <= 2 ^ J) by (apply Z.pow_le_mono_r; lia). lia. }
  exists s. split; [exact Hs|].
  pose proof (new_inv _ _ _ _ _ _ Hs) as (b' & Qs & T & l2T & phi & psi1s & psi2s & Hb' & EQ' & ET & El' & EF & _ & Es).
  rewrite Hb in Hb'. injection Hb'; intros <-. rewrite EQ in EQ'. injection EQ'; intros <-.
  rewrite HbN, El in El'. injection El'; intros <-.
  assert (Els : s_log2_stride s = Ok 1).
  { rewrite Es. cbn [s_log2_stride]. destruct (build_inv _ _ _ Hb) as (st & T' & l & r & _ & EO & _ & _ & Eb).
    cbn in EO. injection EO; intros <-. rewrite Eb. cbn [b_stride b_N log2_stride_of]. rewrite HbN. exact El. }
  assert (Ea : s_average s = Ok Local).
  { rewrite Es. cbn [s_average p p_T p_J mk_params]. rewrite HbN. unfold average_of. now rewrite HT. }
  assert (Em : meta s = Err IndexError).
  { unfold meta. rewrite Els. cbn [bind].
    destruct (scattering1d (dry_backend (nd C)) tt (s_phi s) (psis_of s) 1 false) as [gen|e] eqn:Eg.
    - exfalso. rewrite Es in Eg. cbn [s_phi psis_of s_max_order s_psi1 s_psi2 p p_max_order mk_params] in Eg.
      change (firstn (Z.to_nat 2) [psi1s; psi2s]) with [psi1s; psi2s] in Eg.
      destruct (factory_banks _ _ _ _ _ _ _ _ _ EF) as (P1 & P2 & J1 & J2). rewrite Forall_forall in J1, J2.
      assert (G : forall psis k, map params_of psis = anden_list J 1 sigma0 r_psi ->
        (forall f, In f psis -> f_j f = scale (f_xi f) (f_sigma f)) ->
        (k <= Z.to_nat J)%nat -> exists f : Core1d.filter (nd C) R, In f psis /\ f_j f = Z.max (Z.of_nat k - 2) 0).
      { intros psis k Hp Hj Hk.
        assert (I1 : In (35 / 100 / 2 ^ k, rho 1 * (35 / 100 / 2 ^ k))%R (map params_of psis)).
        { rewrite Hp. rewrite (anden_unique J 1 sigma0 r_psi _ _ (anden_list_ok J 1 ltac:(lia) ltac:(lia)) (anden_Q1 J ltac:(lia))).
          apply in_map_iff. exists k. split; [reflexivity|]. apply in_seq. lia. }
        apply in_map_iff in I1 as (f1 & E1 & I1). exists f1. split; [exact I1|]. injection E1 as E1a E1b.
        now rewrite (Hj f1 I1), E1a, E1b, scale_Q1. }
      destruct (G psi1s 4%nat P1 J1 ltac:(lia)) as (f1 & I1 & Hj1).
      destruct (G psi2s 5%nat P2 J2 ltac:(lia)) as (f2 & I2 & Hj2).
      destruct (lookup2_of_run _ _ _ _ _ _ _ _ Eg f1 f2 I1 I2 ltac:(lia)) as [w Hw].
      apply py_index_nonneg in Hw; [|lia].
      assert (Hn : nth_error (f_levels f2) (Z.to_nat (f_j f1)) <> None) by congruence. apply nth_error_Some in Hn.
      pose proof (psi2_levels _ _ _ _ _ _ _ _ _ f2 EF I2). lia.
    - cbn [bind]. now rewrite (dry_err _ _ _ _ _ Eg). }
  split; [exact Em|]. split; [unfold output_size; now rewrite Em|].
  intros batch x Hd Hsh Hw.
  assert (Eo : s_out_type s = "list"%string) by (rewrite Es; reflexivity).
  replace s with (with_out s "list") by (rewrite Es; reflexivity).
  assert (G : forall batch x, nd_dtype x = Real -> nd_shape x = batch ++ [Z.to_nat N] -> nd_wf x ->
     exists l, scattering np (with_out s "list") x = Ok (OutList l)); [|eauto].
  apply (C14_lookups support p "list" s N 1 1 1 Local 1 Hsup Hs eq_refl ltac:(lia) ltac:(cbn; lia) ltac:(cbn; lia) EQ ltac:(lia)
    Els Ea El ltac:(lia) ltac:(congruence)).
Qed.
Print Assumptions C18_meta_total_refuted.
