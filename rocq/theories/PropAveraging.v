(** Property C05, on constructed objects: how the arguments T and F are read. *)
From Coq Require Import String Reals ZArith QArith Qreals Qpower List Bool Arith Lia Lra.
From Coquelicot Require Import Complex.
From Verif Require Import Base BaseProofs NdArray Backend Core1d Utils1d Utils1dProofs Frontend1d Frontend1dProofs NdProofs Rows1d
  Factory1d FactoryProofs ComplexOps FilterBank1d FilterBank1dProofs Construct1d Shape1d PropShapes1d PropFilters1d
  Jtfs JtfsFront JtfsConstruct JtfsTotal PropJtfs PropJtfsValues PropJtfsErrors.
Import ListNotations.
Local Open Scope Z_scope.
Local Open Scope res_scope.

(** The documented reading of T (of F): kind of averaging and support of the low-pass filter, on an axis of [n] samples and for
    the maximal scale [J]. *)
Inductive reads (J n : Z) : tval -> avg -> R -> Prop :=
| reads_default : reads J n TNone Local (IZR (2 ^ J))
| reads_global : reads J n TGlobal Global (IZR (2 ^ J))
| reads_zero q : (q == 0)%Q -> reads J n (TNum q) NoAvg (IZR (2 ^ J))
| reads_support q : (1 <= q)%Q -> (q <= inject_Z n)%Q -> reads J n (TNum q) Local (Q2R q).
(** [phi] is the Gaussian of support [T], tabulated on [n] frequencies; its scale is the largest power of two within the support. *)
Definition lowpass_of (n : nat) (T : R) (phi : Core1d.filter (nd C) R) : Prop :=
  f_N phi = Z.of_nat n /\ f_sigma phi = (sigma0 / T)%R /\ nth_error (f_levels phi) 0 = Some (gauss_1d n (sigma0 / T)) /\
  0 <= f_j phi /\ (IZR (2 ^ f_j phi) <= T < IZR (2 ^ (f_j phi + 1)))%R.


Lemma Qpower_Q2R J : 0 <= J -> Q2R (Qpower 2 J) = IZR (2 ^ J).
Proof.
  intros HJ. rewrite (Qeq_eqR _ (inject_Z (2 ^ J))); [unfold Q2R, inject_Z; cbn [Qnum Qden]; lra|].
  destruct (Z.eq_dec J 0) as [->|Hn]; [reflexivity|]. symmetry. apply (Zpower_Qpower 2 J). lia.
Qed.
Lemma parse_reads T J n q a : 0 <= J -> parse_T T J n = Ok (q, a) -> reads J n T a (Q2R q).
Proof.
  intros HJ H. destruct T as [| | |x]; cbn [parse_T] in H; try discriminate.
  - injection H as <- <-. rewrite Qpower_Q2R by exact HJ. constructor.
  - injection H as <- <-. rewrite Qpower_Q2R by exact HJ. constructor.
  - destruct (Qltb (inject_Z n) x) eqn:E1; [discriminate|]. destruct (Qeq_bool x 0) eqn:E2.
    + injection H as <- <-. rewrite Qpower_Q2R by exact HJ. constructor. now apply Qeq_bool_iff.
    + destruct (Qltb x 1) eqn:E3; [discriminate|]. injection H as <- <-. unfold Qltb in *. rewrite negb_false_iff in E1, E3. apply Qle_bool_iff in E1, E3. now constructor.
Qed.
Lemma reads_fun J n T a w a' w' : reads J n T a w -> reads J n T a' w' -> a' = a /\ w' = w.
Proof.
  intros H H'. destruct H; inversion H'; subst; try (split; reflexivity).
  - exfalso. rewrite H in H1. unfold Qle in H1. cbn in H1. lia.
  - exfalso. rewrite H2 in H. unfold Qle in H. cbn in H. lia.
Qed.
Lemma factory_lowpass (F : formulas C R) n J Qs T l phi psis : fo_sigma_low F T = (sigma0 / Q2R T)%R -> fo_gauss F = gauss_1d -> (1 <= T)%Q ->
  filter_factory complex_ops F n J Qs T (log2_floor T l) = Ok (phi, psis) -> lowpass_of n (Q2R T) phi.
Proof.
  intros Es Eg HT H. unfold filter_factory in H. inv_bind H. destruct v as [ps pj]. cbv beta iota zeta in H. inv_bind H. injection H as <- _.
  rewrite Es, Eg in *. unfold levels_upto in E0. inv_bind E0. injection E0 as <-. destruct (log2_floor_spec T l HT) as (H0 & H1 & H2).
  split; [reflexivity|]. split; [reflexivity|]. split; [reflexivity|]. cbn [f_j]. split; [exact H0|].
  assert (I : forall z, IZR z = Q2R (inject_Z z)) by (intros z; unfold Q2R, inject_Z; cbn [Qnum Qden]; lra).
  rewrite !I. split; [now apply Qle_Rle|now apply Qlt_Rlt].
Qed.

(** ** C05 on objects *)
Theorem C05_time : forall support p out s N, Scattering1D support p out = Ok s -> N_input_of (p_shape p) = Ok N -> 0 <= p_J p ->
  exists a T, reads (p_J p) N (p_T p) a T /\ s_average s = Ok a /\
    lowpass_of (Z.to_nat (s_pad_left s + N + s_pad_right s)) T (s_phi s).
Proof.
  intros support p out s N H EN HJ. unfold new_scattering1d in H. inv_bind H. inv_bind H. inv_bind H. inv_bind H. inv_bind H. destruct v3 as [phi psis].
  assert (Eb : b_N v = N /\ b_left v + N + b_right v = b_Npad v).
  { unfold build in E. rewrite EN in E. cbn [bind] in E. inv_bind E. inv_bind E. cbv zeta in E. inv_bind E. inv_bind E.
    destruct (compute_border_indices _ _ _ _) as [d e] in E. injection E as <-. cbn [b_N b_left b_right b_Npad]. split; [reflexivity|].
    destruct v5 as [l r]. cbn [fst snd]. unfold compute_padding in E6. destruct (_ <? _) in E6; [discriminate|]. cbv zeta in E6. destruct (_ <=? _) in E6; [discriminate|]. injection E6 as <- <-. lia. }
  destruct Eb as [EbN Epad]. rewrite EbN in *.
  destruct psis as [|p1 [|p2 [|]]]; try discriminate. inv_bind H. injection H as <-. cbn [s_average s_pad_left s_pad_right s_phi].
  unfold T_of in E1. destruct (parse_T (p_T p) (p_J p) N) as [[q a]|] eqn:EP; [|discriminate]. cbn [bind fst] in E1. injection E1 as <-.
  exists a, (Q2R q). split; [now apply (parse_reads _ _ _ _ _ HJ)|].
  split; [unfold average_of; rewrite EP; reflexivity|]. rewrite Epad.
  unfold log2_T_of, T_of in E2. rewrite EP in E2. cbn [bind fst] in E2. injection E2 as <-.
  eapply factory_lowpass; [| |exact (parse_T_ge1 _ _ _ _ _ HJ EP)|exact E3]; reflexivity.
Qed.
Print Assumptions C05_time.

(** Nothing else is accepted: every number that is neither 0 nor between 1 and N raises ValueError (a string TypeError). *)
Theorem C05_time_rejected : forall support p out N, N_input_of (p_shape p) = Ok N -> 1 <= N -> p_oversampling p = ONone \/ p_oversampling p = OInt 0 ->
  (F_out_of_range (p_T p) N -> Scattering1D support p out = Err ValueError) /\
  (p_T p = TStr -> Scattering1D support p out = Err TypeError) /\
  (0 <= p_J p -> (forall a T, ~ reads (p_J p) N (p_T p) a T) <-> F_out_of_range (p_T p) N \/ p_T p = TStr).
Proof.
  intros support p out N EN HN Ho.
  assert (EB : forall e, T_of (p_T p) (p_J p) N = Err e -> Scattering1D support p out = Err e).
  { intros e E. unfold new_scattering1d, build. rewrite EN. cbn [bind].
    assert (Eo : oversampling_check (p_oversampling p) (p_stride p) (p_T p) (p_J p) N = Ok (p_stride p)) by (destruct Ho as [-> | ->]; reflexivity).
    rewrite Eo. cbn [bind]. rewrite E. reflexivity. }
  split; [intros H; apply EB, F_error; [exact H|lia]|]. split; [intros H; apply EB; now rewrite H|]. intros HJ. split.
  - intros H. destruct (p_T p) as [| | |q] eqn:Ep.
    + exfalso. eapply H. constructor.
    + exfalso. eapply H. constructor.
    + now right.
    + left. exists q. split; [reflexivity|]. destruct (Qlt_le_dec (inject_Z N) q) as [|H1]; [now left|]. right.
      destruct (Qeq_dec q 0) as [E0|N0]; [exfalso; eapply H; constructor; exact E0|]. split; [|exact N0].
      destruct (Qlt_le_dec q 1) as [|H2]; [assumption|]. exfalso. eapply H. apply reads_support; assumption.
  - intros H a T HR. destruct H as [(q & E & H)|E]; rewrite E in HR; inversion HR; subst.
    + destruct H as [H|[_ H]]; [|contradiction]. rewrite H1 in H. unfold Qlt in H. cbn in H. lia.
    + destruct H as [H|[H _]]; [now apply (Qlt_not_le _ _ H)|now apply (Qlt_not_le _ _ H)].
Qed.
Print Assumptions C05_time_rejected.

(** F, on the axis of the (J+1) Q1 first-order wavelets; what is refused is in C94_constructor_errors. *)
Theorem C05_frequency : forall support p out t q1 q2, TimeFrequencyScattering support p out = Ok t -> 0 <= jp_J_fr p ->
  p_Q (jp_base p) = QInt q1 \/ p_Q (jp_base p) = QTuple [QI q1] \/ p_Q (jp_base p) = QTuple [QI q1; q2] ->
  exists a F, reads (jp_J_fr p) ((p_J (jp_base p) + 1) * q1) (jp_F p) a F /\ t_average_fr t = Ok a /\ lowpass_of (bins t) F (t_phi_fr t).
Proof.
  intros support p out t q1 q2 H HJ HQ. unfold new_jtfs in H. cbv zeta in H. cbn [p_J p_Q] in H. inv_bind H. inv_bind H. inv_bind H. inv_bind H. inv_bind H. inv_bind H.
  destruct v4 as [phi psis]. injection H as <-. cbn [t_average_fr t_phi_fr].
  assert (v2 = q1).
  { unfold Q_of in E1. destruct (existsb _ _) in E1; [discriminate|]. destruct HQ as [HQ|[HQ|HQ]]; rewrite HQ in E1; injection E1 as <-; cbn in E2; congruence. }
  subst v2. unfold T_of in E3. destruct (parse_T (jp_F p) (jp_J_fr p) _) as [[q a]|] eqn:EP; [|discriminate]. cbn [bind fst] in E3. injection E3 as <-.
  unfold create_filters_fr in E4. destruct (_ <=? _) in E4; [discriminate|]. inv_bind E4. destruct v2 as [phi0 ps0]. inv_bind E4. destruct v2 as [phi1 ps1].
  destruct ps1 as [|ps1 [|]]; try discriminate. destruct (forallb _ _) in E4; [|discriminate]. injection E4 as <- _.
  exists a, (Q2R q). split; [now apply (parse_reads _ _ _ _ _ HJ)|]. split; [unfold average_of; rewrite EP; reflexivity|].
  pose proof (factory_lowpass formulas_fr _ _ _ _ _ _ _ eq_refl eq_refl (parse_T_ge1 _ _ _ _ _ HJ EP) E3) as HL.
  unfold bins. cbn [t_phi_fr]. rewrite (proj1 HL), Nat2Z.id. exact HL.
Qed.
Print Assumptions C05_frequency.

(** The four readings, on real objects: J = 2, eight wavelets per octave, any length from 4 on. *)
Example C05_frequency_instance : forall N, 4 <= N ->
  let p F := default_jparams 2 N 8 1 F "joint" in
  (exists t a F, TimeFrequencyScattering (fun _ _ => 1) (p TNone) "list" = Ok t /\ reads 1 24 (jp_F (p TNone)) a F /\ t_average_fr t = Ok Local /\ F = 2%R) /\
  (exists t, TimeFrequencyScattering (fun _ _ => 1) (p TGlobal) "list" = Ok t /\ t_average_fr t = Ok Global) /\
  (exists t, TimeFrequencyScattering (fun _ _ => 1) (p (TNum 0)) "list" = Ok t /\ t_average_fr t = Ok NoAvg) /\
  (exists t, TimeFrequencyScattering (fun _ _ => 1) (p (TNum (3 # 2))) "list" = Ok t /\ t_average_fr t = Ok Local /\ f_sigma (t_phi_fr t) = (sigma0 / (3 / 2))%R).
Proof.
  intros N HN p.
  assert (B : forall F FQ a T, T_of F 1 24 = Ok FQ -> log2_floor FQ 1 <= 1 -> 0 < N_padded_fr_of 24 1 FQ -> reads 1 24 F a T ->
    exists t, TimeFrequencyScattering (fun _ _ => 1) (p F) "list" = Ok t /\ t_average_fr t = Ok a /\ f_sigma (t_phi_fr t) = (sigma0 / T)%R).
  { intros F FQ a T EF Hl HP HR.
    destruct (jtfs_instance (fun _ _ => 1) 2 N 8 1 F FQ "list" "joint") as [t Ht]; try lia; try assumption.
    destruct (C05_frequency _ (p F) _ t 8 (QI 1) Ht) as (a' & F' & HR' & Ha & _ & Hs & _); [cbn; lia|left; reflexivity|].
    destruct (reads_fun _ _ _ _ _ _ _ HR HR') as [-> ->]. exists t. now rewrite Ha, Hs. }
  split; [|split; [|split]].
  - destruct (B TNone (Qpower 2 1) Local (IZR (2 ^ 1))) as (t & Ht & Ha & _); [reflexivity|vm_compute; discriminate|reflexivity|constructor|].
    exists t, Local, (IZR (2 ^ 1)). split; [exact Ht|]. split; [constructor|]. split; [exact Ha|]. reflexivity.
  - destruct (B TGlobal (Qpower 2 1) Global (IZR (2 ^ 1))) as (t & Ht & Ha & _); [reflexivity|vm_compute; discriminate|reflexivity|constructor|]. now exists t.
  - destruct (B (TNum 0) (Qpower 2 1) NoAvg (IZR (2 ^ 1))) as (t & Ht & Ha & _); [reflexivity|vm_compute; discriminate|reflexivity|constructor; reflexivity|]. now exists t.
  - destruct (B (TNum (3 # 2)) (3 # 2)%Q Local (Q2R (3 # 2))) as (t & Ht & Ha & Hs); [reflexivity|vm_compute; discriminate|reflexivity|constructor; vm_compute; discriminate|].
    exists t. split; [exact Ht|]. split; [exact Ha|]. rewrite Hs. unfold Q2R. cbn [Qnum Qden]. reflexivity.
Qed.
Example C05_rejected_instance : forall N, 1 <= N -> F_out_of_range (TNum (inject_Z (N + 1))) N /\ F_out_of_range (TNum (1 # 2)) N /\ F_out_of_range (TNum (-4)) N.
Proof.
  intros N HN. split; [|split]; (eexists; split; [reflexivity|]).
  - left. unfold Qlt. cbn. lia.
  - right. split; [reflexivity|discriminate].
  - right. split; [reflexivity|discriminate].
Qed.
