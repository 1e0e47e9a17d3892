(** A TimeFrequencyScattering call that returns has looked up only resolutions that were tabulated: success of the call
    is enough for the evaluation of JtfsFull to apply. *)
From Coq Require Import String Reals ZArith QArith Qpower Qminmax List Bool Arith Lia Lqa.
From Coquelicot Require Import Complex.
From Verif Require Import Base BaseProofs NdArray Backend Core1d Utils1d Utils1dProofs Frontend1d Frontend1dProofs NdProofs Rows1d FrontRows Mats
  Factory1d FactoryProofs ComplexOps FilterBank1d FilterBank1dProofs Construct1d Shape1d
  Jtfs JtfsFront JtfsProofs JtfsKeys JtfsRows JtfsFmt JtfsFull JtfsConstruct JtfsMeta JtfsTotal PropJtfs JtfsReady.
Import ListNotations.
Local Open Scope Z_scope.
Local Open Scope res_scope.

(** The state left by the constructor of Scattering1D. *)
Lemma new_frame support p out (s : scat1d (nd C) R) N q1 q2 ls a l2T :
  (forall n t, 0 <= support n t) -> new_scattering1d complex_ops formulas1d support p out = Ok s ->
  N_input_of (p_shape p) = Ok N -> 1 <= N -> 0 <= p_J p -> Q_of (p_Q p) = Ok [QI q1; QI q2] ->
  s_log2_stride s = Ok ls -> s_average s = Ok a -> log2_T_of (p_T p) (p_J p) N = Ok l2T ->
  exists Np T, (0 < Np)%nat /\ 0 <= l2T /\ 0 <= ls /\ (a <> Local -> l2T = p_J p /\ ls = l2T) /\ (exists k, Np = p2 k /\ 0 <= k) /\
    filter_factory complex_ops formulas1d Np (p_J p) [QI q1; QI q2] T l2T = Ok (s_phi s, [s_psi1 s; s_psi2 s]) /\
    exists l r, Np = (l + Z.to_nat N + r)%nat /\ s_pad_left s = Z.of_nat l /\ s_pad_right s = Z.of_nat r /\
      (l < Z.to_nat N)%nat /\ (r < Z.to_nat N)%nat /\
      s_ind_start s = border_list (Z.to_nat (Z.max l2T (p_J p))) (Z.of_nat l) /\
      s_ind_end s = border_list (Z.to_nat (Z.max l2T (p_J p))) (Z.of_nat (l + Z.to_nat N)).
Proof.
  intros Hsup H EN HN HJ EQ Els Ea ET. unfold new_scattering1d in H.
  inv_bind H. rename v into b. pose proof (build_plan support p b Hsup E) as Plan.
  destruct (build_inv _ _ _ E) as (st & T & l & r & EN' & ES & ET' & EP & Eb).
  assert (EbN : b_N b = N) by congruence. rewrite EbN in *. specialize (Plan HN).
  destruct Plan as ((k & Hk & Epow) & B1 & B2 & B3 & B4 & B5 & B6 & B7).
  rewrite EQ in H. cbn [bind] in H. rewrite ET' in H. cbn [bind] in H. rewrite ET in H. cbn [bind] in H.
  inv_bind H. destruct v as [phi psis]. rename E0 into EF.
  destruct psis as [|psi1s [|psi2s [|]]]; try discriminate.
  inv_bind H. injection H; intros Hs. clear H.
  assert (El2T : l2T = log2_floor T (p_J p)).
  { unfold log2_T_of in ET. rewrite ET' in ET. cbn [bind] in ET. congruence. }
  assert (HT : (1 <= T)%Q) by exact (T_of_ge1 _ _ _ _ HJ ET').
  pose proof (log2_floor_spec T (p_J p) HT) as (Hl2T & _). rewrite <- El2T in Hl2T.
  assert (Eav : average_of (p_T p) (p_J p) N = Ok a) by (rewrite <- Hs in Ea; exact Ea).
  assert (Estr : log2_stride_of (b_stride b) (p_T p) (p_J p) N = Ok ls) by (rewrite <- Hs in Els; exact Els).
  assert (Hls : 0 <= ls /\ (a <> Local -> ls = l2T)).
  { revert Estr. destruct (b_stride b) as [|z|q|]; cbn [log2_stride_of]; try discriminate.
    - rewrite ET. intros G. injection G as <-. auto.
    - destruct (z <=? 0); [discriminate|]. destruct (negb _); [discriminate|]. rewrite Eav. cbn [bind].
      destruct a; try discriminate. intros G; injection G; intros <-. split; [apply Z.log2_nonneg|congruence]. }
  assert (HTJ : a <> Local -> l2T = p_J p).
  { intros Hna. rewrite El2T, (F_default _ _ _ _ _ ET' Eav Hna). apply log2_floor_pow2. exact HJ. }
  exists (Z.to_nat (b_Npad b)), T.
  split; [lia|]. split; [exact Hl2T|]. split; [apply Hls|]. split; [intros Hna; split; [now apply HTJ|now apply Hls]|].
  split. { exists k. split; [|exact Hk]. rewrite Epow. apply p2_of_Z. exact Hk. }
  split. { rewrite <- Hs. cbn [s_phi s_psi1 s_psi2]. exact EF. }
  exists (Z.to_nat (b_left b)), (Z.to_nat (b_right b)).
  split; [lia|]. rewrite <- Hs. cbn [s_pad_left s_pad_right s_ind_start s_ind_end].
  split; [lia|]. split; [lia|]. split; [lia|]. split; [lia|]. split.
  - rewrite Eb at 1. cbn [b_start]. unfold compute_border_indices. cbn [fst]. rewrite <- El2T. rewrite Eb. cbn [b_left]. f_equal.
    rewrite Eb in B1, B2. cbn [b_left] in *. lia.
  - rewrite Eb at 1. cbn [b_end]. unfold compute_border_indices. cbn [snd]. rewrite <- El2T. rewrite Eb. cbn [b_left]. f_equal.
    rewrite Eb in B1, B2. cbn [b_left] in *. lia.
Qed.

(** The frequential filters of a constructed object. *)
Lemma new_fr support p out t : 0 <= p_J (jp_base p) -> 0 <= jp_J_fr p -> TimeFrequencyScattering support p out = Ok t ->
  exists Nfr : nat, f_N (t_phi_fr t) = Z.of_nat Nfr /\ (0 < Nfr)%nat /\ 0 <= f_j (t_phi_fr t) /\
    (forall k w, 0 <= k -> py_index (f_levels (t_phi_fr t)) k = Ok w -> Nat.divide (p2 k) Nfr /\ level_ok (t_phi_fr t) k (Nfr / p2 k)) /\
    (forall psi, In psi (t_psis_fr t) -> 0 <= f_j psi <= jp_J_fr p /\ level_ok psi 0 Nfr /\
       forall k, 0 <= k <= f_j psi -> Nat.divide (p2 k) Nfr).
Proof.
  intros HJ HJf H. pose proof (new_jtfs_spun _ _ _ _ HJf H) as [_ Hsc]. rewrite Forall_forall in Hsc.
  apply new_jtfs_inv in H.
  destruct H as (pb & Q_fr & q0 & q1' & F & _ & _ & _ & _ & ET & HNf & _ & _ & _ & Ephi & phi1 & psis & Epsis & Eps).
  pose proof (factory_inv1 _ _ _ _ _ _ _ _ _ Ephi ltac:(cbn; lia)) as (Fj & _ & FN & _ & _ & Flev).
  pose proof (factory_inv1 _ _ _ _ _ _ _ _ _ Epsis ltac:(cbn; lia)) as (Gj & _ & _ & _ & qf & -> & ps & Eps' & Gm & Glev).
  injection Eps' as <-. rewrite log2_floor_pow2 in * by exact HJf.
  set (Nfr := Z.to_nat (N_padded_fr_of ((p_J (jp_base p) + 1) * q0) (jp_J_fr p) F)) in *.
  destruct (sane_gauss _ formulas1d_sane Nfr (fo_sigma_low formulas_fr F)) as (M1 & M2 & M3).
  destruct (sane_gauss _ formulas1d_sane Nfr (fo_sigma_low formulas_fr (Qpower 2 (jp_J_fr p)))) as (M4 & M5 & M6).
  exists Nfr. split; [exact FN|]. split; [unfold Nfr; lia|]. split; [rewrite Fj; apply log2_floor_spec; exact (T_of_ge1 _ _ _ _ HJf ET)|].
  assert (LL : forall (full : nd C) stop (f : Core1d.filter (nd C) R) k w, nd_shape full = [Nfr] -> nd_dtype full = Real -> List.length (nd_data full) = Nfr ->
     levels_upto complex_ops full stop = Ok (f_levels f) -> 0 <= k -> py_index (f_levels f) k = Ok w -> Nat.divide (p2 k) Nfr /\ level_ok f k (Nfr / p2 k)).
  { intros full stop f k w H1 H2 H3 H4 Hk Hw. apply py_index_nonneg in Hw; [|assumption].
    apply (levels_level_ok full Nfr stop f k H1 H2 H3 H4).
    assert (Hn : nth_error (f_levels f) (Z.to_nat k) <> None) by congruence. apply nth_error_Some in Hn.
    unfold levels_upto in H4. inv_bind H4. injection H4; intros E'. apply mapM_length in E. rewrite <- E' in Hn.
    cbn [List.length] in Hn. unfold zrange in E. rewrite map_length, seq_length in E. lia. }
  split; [intros k w Hk Hw; exact (LL _ _ _ _ _ M1 M2 M3 Flev Hk Hw)|].
  intros psi Hpsi. pose proof (Hsc psi Hpsi) as Hj. cbn beta in Hj. split; [exact Hj|]. split.
  - rewrite Eps in Hpsi. destruct Hpsi as [<-|Hpsi].
    + destruct (levels_level_ok _ _ _ phi1 0 M4 M5 M6 Glev) as [_ L]; [lia|]. now rewrite p2_0, Nat.div_1_r in L.
    + destruct (layer_In _ _ _ _ _ _ _ _ Gm Hpsi) as (xi & sg & Hin & _ & _ & _ & El).
      destruct (sane_morlet _ formulas1d_sane Nfr xi sg) as (S1 & S2 & S3).
      destruct (levels_level_ok _ _ _ psi 0 S1 S2 S3 El) as [_ L]; [lia|]. now rewrite p2_0, Nat.div_1_r in L.
  - intros k Hk. eapply (levels_level_ok _ _ _ phi1 k M4 M5 M6 Glev). lia.
Qed.

(** The levels that the time stage looks up. *)
Lemma phi_levels N J Qs T l2T phi psis k w : filter_factory complex_ops formulas1d N J Qs T l2T = Ok (phi, psis) -> 0 <= k ->
  py_index (f_levels phi) k = Ok w -> Nat.divide (p2 k) N /\ level_ok phi k (N / p2 k).
Proof.
  intros H Hk Hw. unfold filter_factory in H. inv_bind H. destruct v as [ps pj]. inv_bind H. injection H; intros _ Ephi.
  destruct (sane_gauss _ formulas1d_sane N (fo_sigma_low formulas1d T)) as (M1 & M2 & M3).
  assert (Ev : v = f_levels phi) by (rewrite <- Ephi; reflexivity). rewrite Ev in E0.
  apply py_index_nonneg in Hw; [|assumption].
  assert (Hn : nth_error (f_levels phi) (Z.to_nat k) <> None) by congruence. apply nth_error_Some in Hn.
  refine (levels_level_ok _ _ _ _ k M1 M2 M3 E0 _).
  unfold levels_upto in E0. inv_bind E0. injection E0; intros E2. rewrite <- E2 in Hn. apply mapM_length in E1.
  cbn [List.length] in Hn. unfold zrange in E1. rewrite map_length, seq_length in E1. lia.
Qed.

Lemma jadm_run {X} (be : backend X (nd C)) N J q1 q2 T l2T phi psi1s psi2s U ls (al : bool) r :
  (0 < N)%nat -> 0 <= J -> 1 <= q1 -> 1 <= q2 -> 0 <= l2T -> 0 <= ls -> psi1s <> [] ->
  filter_factory complex_ops formulas1d N J [QI q1; QI q2] T l2T = Ok (phi, [psi1s; psi2s]) ->
  (if al then Nat.divide (p2 ls) N else l2T = J /\ ls = J) ->
  widthfirst be U phi psi1s psi2s ls al = Ok r ->
  (al = true -> forall f1 f2, In f1 psi1s -> In f2 psi2s -> f_j f1 < f_j f2 -> f_j f2 <= ls) ->
  jadm_time phi psi1s psi2s N ls al /\ (forall f, In f psi2s -> 0 <= f_j f <= Z.max (J - 1) 0).
Proof.
  intros HN HJ Hq1 Hq2 Hl2T Hls Hne H Hal Hrun Hpair. pose proof formulas1d_sane as HF.
  pose proof (factory_inv _ _ _ _ _ _ _ _ _ _ _ H) as (E1 & E2 & E3 & Ej).
  set (pj1 := upd_max_j 0 psi1s) in *. set (pj2 := upd_max_j pj1 psi2s) in *.
  assert (J1 : forall f, In f psi1s -> 0 <= f_j f <= Z.max (J - 1) 0).
  { intros f Hf. destruct (layer_In _ _ _ _ _ _ _ _ E1 Hf) as (xi & s & Hin & _ & _ & -> & _).
    apply (sane_j _ HF J q1); [lia|lia|exact Hin]. }
  assert (J2 : forall f, In f psi2s -> 0 <= f_j f <= Z.max (J - 1) 0).
  { intros f Hf. destruct (layer_In _ _ _ _ _ _ _ _ E2 Hf) as (xi & s & Hin & _ & _ & -> & _).
    apply (sane_j _ HF J q2); [lia|lia|exact Hin]. }
  split; [|exact J2].
  assert (L1 : forall f k w, In f psi1s -> 0 <= k -> py_index (f_levels f) k = Ok w -> level_ok f k (N / p2 k)).
  { intros f k w Hf Hk Hw. destruct (layer_In _ _ _ _ _ _ _ _ E1 Hf) as (xi & s & Hin & _ & _ & _ & El).
    destruct (sane_morlet _ HF N xi s) as (M1 & M2 & M3). exists w.
    split; [now apply py_index_nonneg|]. eapply levels_upto_nth; eassumption. }
  assert (L2 : forall f k w, In f psi2s -> 0 <= k -> py_index (f_levels f) k = Ok w -> level_ok f k (N / p2 k)).
  { intros f k w Hf Hk Hw. destruct (layer_In _ _ _ _ _ _ _ _ E2 Hf) as (xi & s & Hin & _ & _ & _ & El).
    destruct (sane_morlet _ HF N xi s) as (M1 & M2 & M3). exists w.
    split; [now apply py_index_nonneg|]. eapply levels_upto_nth; eassumption. }
  assert (D : Nat.divide (p2 ls) N).
  { destruct al; [exact Hal|]. destruct (sane_gauss _ HF N (fo_sigma_low formulas1d T)) as (M1 & M2 & M3).
    apply (levels_upto_ok _ _ _ _ _ M1 M2 M3 E3 ls). lia. }
  assert (Hkk : forall f, In f psi1s -> 0 <= kk ls al f <= ls).
  { intros f Hf. specialize (J1 f Hf). unfold kk. destruct al; lia. }
  destruct r as [[p0 S1] Ys]. apply widthfirst_inv in Hrun. destruct Hrun as (U0h & l1 & ll & _ & R0 & R1 & _ & _ & R2 & _).
  pose proof (width1_j _ _ _ _ _ _ _ R1) as Hj1.
  apply mapM_ok in R1. apply mapM_ok in R2.
  constructor; try assumption.
  - intros ->. unfold order0 in R0. inv_bind R0. apply (phi_levels _ _ _ _ _ _ _ 0 _ H) in E; [|lia].
    destruct E as [_ E]. now rewrite p2_0, Nat.div_1_r in E.
  - intros f1 Hf1. pose proof (J1 f1 Hf1) as Hj. split; [lia|].
    destruct (Forall2_In_l _ _ _ _ R1 Hf1) as (y & _ & Ey). unfold width1 in Ey. inv_bind Ey. inv_bind Ey. inv_bind Ey.
    unfold order1_modulus in E. inv_bind E. apply L1 in E5; [|assumption|lia]. rewrite p2_0, Nat.div_1_r in E5. split; [exact E5|].
    change (if al then Z.min (f_j f1) ls else f_j f1) with (kk ls al f1) in *. split; [now apply Hkk|].
    exact (proj2 (phi_levels _ _ _ _ _ _ _ _ _ H (proj1 (Hkk f1 Hf1)) E4)).
  - intros f1 f2 Hf1 Hf2 Hlt. split.
    + destruct (In_nth_error _ _ Hf2) as (n2 & Hn2). pose proof (proj2 (In_enumerate psi2s n2 f2) Hn2) as He2.
      destruct (Forall2_In_l _ _ _ _ R2 He2) as (y & _ & Ey). apply (width2_all_inv _ _ _ _ _ _ psi1s) in Ey; [|assumption].
      assert (Hs : (0 < smaller psi1s (f_j f2))%nat).
      { unfold smaller. assert (I : In f1 (List.filter (fun f => f_j f <? f_j f2) psi1s)) by (apply filter_In; split; [assumption|now apply Z.ltb_lt]).
        destruct (List.filter _ psi1s); [destruct I|cbn; lia]. }
      apply Nat.ltb_lt in Hs. rewrite Hs in Ey. destruct Ey as (Y & ys & _ & Em & _). apply mapM_ok in Em.
      destruct (Forall2_In_l _ _ _ _ R1 Hf1) as (u & Hu & Eu).
      destruct (Forall2_In_l _ _ _ (fst u) Em) as (y2 & _ & Ey2); [now apply in_map|].
      unfold width1 in Eu. inv_binds Eu. injection Eu as <-. cbn [fst] in Ey2. unfold width2 in Ey2.
      rewrite (proj2 (Z.ltb_lt _ _) Hlt) in Ey2. inv_bind Ey2.
      change (if al then Z.min (f_j f1) ls else f_j f1) with (kk ls al f1) in *.
      eapply L2; [exact Hf2|apply (Hkk f1 Hf1)|eassumption].
    + destruct al; [now apply (Hpair eq_refl f1)|]. specialize (J2 f2 Hf2). lia.
Qed.

(** What success of the formatting of a path says about the resolutions it looked up. *)
Lemma format_time_run (phi : Core1d.filter (nd C) R) ls phi_fr lsf a_fr out format p l :
  format_path np false phi ls Local phi_fr lsf a_fr out format p = Ok l -> (1 < List.length (q_n p))%nat -> q_j p <> [] ->
  List.last (q_j p) 0 <= ls /\ exists w, py_index (f_levels phi) (List.last (q_j p) 0) = Ok w.
Proof.
  intros H Hn Hj. unfold format_path in H. inv_bind H. inv_bind H. clear H. cbn [set_coef q_n] in E0.
  rewrite (proj2 (Nat.ltb_lt _ _) Hn) in E0. unfold time_averaging in E0. cbn [set_coef q_j] in E0. rewrite py_index_last in E0 by exact Hj.
  cbn [bind] in E0. inv_bind E0. inv_bind E0. inv_bind E0. inv_bind E0. split; [|eauto].
  cbn [numpy_backend be_subsample] in E4. unfold np_subsample in E4. inv_bind E4. unfold pow2 in E4.
  destruct (Z.ltb_spec (ls - List.last (q_j p) 0) 0); [discriminate|lia].
Qed.

Lemma np_swap_shape (x y : nd C) pre m n : nd_shape x = pre ++ [m; n] -> np_swap complex_ops x = Ok y -> nd_shape y = pre ++ [n; m].
Proof.
  intros Hs H. unfold np_swap, split_last2 in H. rewrite Hs, rev_app_distr in H. cbn [rev app bind] in H. injection H; intros <-.
  cbn [nd_shape]. now rewrite rev_involutive.
Qed.

Lemma format_fr_run (phi : Core1d.filter (nd C) R) ls a phi_fr lsf out format p l B m n :
  format_path np false phi ls a phi_fr lsf Local out format p = Ok l -> List.length (q_n p) = 1%nat -> q_spin p <> 0 ->
  nd_shape (q_coef p) = [B; 1; m; n]%nat -> (0 < B)%nat -> (0 < n)%nat -> 
  let k := Z.min (q_j_fr p) (f_j phi_fr) in
  k <= lsf /\ Nat.divide (p2 (lsf - k)) m /\
  exists w, py_index (f_levels phi_fr) k = Ok w /\ forall m', nd_shape w = [m'] -> m' = m.
Proof.
  intros H Hn Hs Sh HB Hn0 k. unfold format_path in H. inv_bind H. inv_bind H. inv_bind H. clear H.
  cbn [numpy_backend be_modulus] in E. unfold np_modulus in E. injection E as E.
  assert (Hv : nd_shape v = [B; 1; m; n]%nat) by (rewrite <- E; exact Sh). clear E.
  assert (G : q_spin v0 = q_spin p /\ q_j_fr v0 = q_j_fr p /\ exists n', (0 < n')%nat /\ nd_shape (q_coef v0) = [B; 1; m; n']%nat).
  { destruct a.
    - cbn [set_coef q_n] in E0. rewrite Hn in E0. cbn [Nat.ltb Nat.leb] in E0. injection E0 as <-. split; [reflexivity|]. split; [reflexivity|]. exists n. auto.
    - inv_bind E0. injection E0 as <-. split; [reflexivity|]. split; [reflexivity|]. exists 1%nat. split; [lia|].
      cbn [numpy_backend be_average_global set_coef q_coef] in E. unfold np_average_global in E. inv_bind E. rewrite Hv in E.
      cbn in E. injection E as <-. reflexivity.
    - injection E0 as <-. split; [reflexivity|]. split; [reflexivity|]. exists n. auto. }
  destruct G as (G1 & G2 & n' & Hn' & G3). rewrite G1 in E1. destruct (Z.eqb_spec (q_spin p) 0); [congruence|].
  unfold frequency_averaging in E1. rewrite G2 in E1. fold k in E1. inv_bind E1. inv_bind E1. inv_bind E1. inv_bind E1. inv_bind E1.
  cbn [numpy_backend be_swap be_rfft be_cdgmm be_subsample] in *.
  apply (np_swap_shape _ _ [B; 1]%nat m n' G3) in E. destruct (np_rfft_inv _ _ E2) as (_ & S2 & _).
  destruct (np_cdgmm_inv _ _ _ E4) as (S3 & T3 & _).
  assert (Hk : 0 <= lsf - k).
  { unfold np_subsample in E5. inv_bind E5. unfold pow2 in E5. destruct (Z.ltb_spec (lsf - k) 0); [discriminate|lia]. }
  split; [lia|]. split.
  - eapply (np_subsample_inv _ _ [B; 1; n']%nat m _ ltac:(rewrite S3, S2, E; reflexivity)); [|exact Hk|exact E5]. cbn. nia.
  - exists v4. split; [exact E3|]. intros m' Hw. rewrite Hw, S2, E in T3. cbn in T3. congruence.
Qed.

Lemma p2_inj k k' m : (0 <= k) -> 0 <= k' -> (0 < m)%nat -> Nat.divide (p2 k) m -> Nat.divide (p2 k') m -> (m / p2 k = m / p2 k')%nat -> k = k'.
Proof.
  intros Hk Hk' Hm [x Hx] [y Hy] E. pose proof (p2_pos k). pose proof (p2_pos k').
  rewrite Hx in E at 1. rewrite Nat.div_mul in E by lia. rewrite Hy in E. rewrite Nat.div_mul in E by lia. subst y.
  assert (Ep : p2 k = p2 k') by nia. unfold p2 in Ep. apply Nat.pow_inj_r in Ep; lia.
Qed.

Local Tactic Notation "inv" hyp(H) "as" ident(a) ident(E) := apply bind_ok in H; destruct H as (a & E & H).

(** The theorem: a call that returns meets [jready]. *)
Theorem run_jready support p out t N batch x p0 S :
  (forall n t, 0 <= support n t) -> TimeFrequencyScattering support p out = Ok t ->
  N_input_of (p_shape (jp_base p)) = Ok N -> 1 <= N -> 0 <= p_J (jp_base p) -> 0 <= jp_J_fr p ->
  nd_wf x -> nd_shape x = batch ++ [Z.to_nat N] -> (0 < prod batch)%nat ->
  jpaths np sgnR t x = Ok (p0, S) ->
  nd_dtype x = Real /\ jcheck_runtime_args t = Ok tt /\
  exists l r mx ls a Nfr lsf a_fr, jready sgnR t (Z.to_nat N) l r mx ls a Nfr lsf a_fr.
Proof.
  intros Hsup H EN HN HJ HJf Hw Hsh Hb HS.
  pose proof (constructed_jtfs_ok _ _ _ _ HJ HJf H) as OK.
  destruct (new_fr _ _ _ _ HJ HJf H) as (Nfr & HNfr & Nfr0 & Hlog2F & Lphi & Lpsi).
  pose proof (new_jtfs_bank _ _ _ _ HJf H) as (low & pos & neg & Eps & Hlow & _ & Hpos & Hneg & _).
  pose proof (new_jtfs_inv _ _ _ _ _ _ _ H) as (pb & Q_fr & q0 & q1' & F & Epb & EB & _).
  assert (EpJ : p_J pb = p_J (jp_base p)) by (subst pb; reflexivity).
  assert (EpN : N_input_of (p_shape pb) = Ok N) by (subst pb; exact EN).
  destruct (new_Q _ _ _ _ EB) as (q1 & q2 & EQ & Hq1 & Hq2).
  unfold jpaths in HS. inv HS as v E. destruct v. inv HS as v0 E0. clear v0 E0. inv HS as v0 E1. destruct v0 as [batch' n'].
  cbn [numpy_backend be_shape] in E1. rewrite Hsh, split_last_snoc in E1. injection E1 as <- <-.
  inv HS as x' E2. inv HS as U0 E3. inv HS as ls Els. inv HS as a Ea. inv HS as lsf Elsf. inv HS as a_fr Eaf. inv HS as Ug Eg.
  destruct Ug as [P0 Ps]. inv HS as Uf Ef. destruct Uf as [P0' Ps']. inv HS as p0' E0f. inv HS as Sf E1f. injection HS as <- <-.
  cbn [numpy_backend be_reshape_input be_pad] in E2, E3.
  destruct (np_reshape_input_inv _ _ _ Hw E2) as (D1 & m & Sx' & Em).
  rewrite Hsh, prod_snoc in Em. assert (Hm : m = prod batch) by nia. subst m.
  destruct (np_pad_inv x' U0 [prod batch; 1]%nat (Z.to_nat N) _ _ Sx' E3) as (D2 & SU & _).
  pose proof Eg as Ew. unfold joint_scattering in Ew. inv Ew as w0 EW. destruct w0 as [[P0w S1] Ys]. inv Ew as w1 Efirst. inv Ew as w2 Esec. injection Ew as -> _. clear Esec.
  pose proof (widthfirst_inv _ _ _ _ _ _ _ _ _ _ EW) as (U0h & l1 & ll & R0 & R1 & _ & _ & ES1 & _ & _).
  cbn [numpy_backend be_rfft] in R0. destruct (np_rfft_inv _ _ R0) as (D3 & S3 & D4).
  split; [congruence|]. split; [exact E|].
  assert (ET : exists l2T, log2_T_of (p_T pb) (p_J pb) N = Ok l2T).
  { pose proof EB as EB1. apply new_inv in EB1. destruct EB1 as (b & Qs & T & l2T & phi & psi1s & psi2s & Hb' & _ & _ & El2T & _).
    assert (EbN : b_N b = N) by (destruct (build_inv _ _ _ Hb') as (st & T0 & l0 & r0 & EN' & _); congruence). rewrite EbN in *. eauto. }
  destruct ET as (l2T & ET).
  destruct (new_frame support pb out (t_base t) N q1 q2 ls a l2T Hsup EB EpN HN ltac:(lia) EQ Els Ea ET)
    as (Np & T & HNp & Hl2T & Hls & HTJ & (kp & ENp & Hkp) & EF & l & r & EN2 & El & Er & Hl & Hr & Est & Een).
  rewrite EpJ in *.
  set (mx := Z.to_nat (Z.max l2T (p_J (jp_base p)))) in *.
  assert (Hlsf : 0 <= lsf) by apply (ok_stride _ _ OK lsf Elsf).
  assert (Hspl : forall q, In q Ps -> exists l', format_path np false (s_phi (t_base t)) ls a (t_phi_fr t) lsf a_fr (s_out_type (t_base t)) (t_format t) q = Ok l').
  { unfold average_and_format in Ef. inv Ef as w7 E4. inv Ef as w8 E5. apply mapM_ok in E5. intros q Hq.
    destruct (Forall2_In_l _ _ _ _ E5 Hq) as (y & _ & Ey). eauto. }
  pose proof (joint_erase _ _ _ _ _ _ _ _ _ _ _ _ _ _ Eg) as (_ & _ & Eslots).
  (* second-order paths *)
  assert (Hsec : a = Local -> forall f1 f2, In f1 (s_psi1 (t_base t)) -> In f2 (s_psi2 (t_base t)) -> f_j f1 < f_j f2 ->
     f_j f2 <= ls /\ exists w, py_index (f_levels (s_phi (t_base t))) (f_j f2) = Ok w).
  { intros -> f1 f2 Hf1 Hf2 Hlt. destruct (In_nth_error _ _ Hf2) as (n2 & Hn2). pose proof (proj2 (In_enumerate _ n2 f2) Hn2) as He2.
    assert (Hs : (0 < smaller (s_psi1 (t_base t)) (f_j f2))%nat).
    { unfold smaller. assert (I : In f1 (List.filter (fun f => f_j f <? f_j f2) (s_psi1 (t_base t)))) by (apply filter_In; split; [assumption|now apply Z.ltb_lt]).
      destruct (List.filter _ (s_psi1 (t_base t))); [destruct I|cbn; lia]. }
    assert (I : In (slot sgnR [-1; f_j f2] [n2] (Z.of_nat (smaller (s_psi1 (t_base t)) (f_j f2))) (0%nat, low)) (map erase Ps)).
    { rewrite Eslots. unfold slots. apply in_app_iff. right. unfold slots2. apply in_flat_map. exists (n2, f2). split; [exact He2|].
      cbn [fst snd]. rewrite (proj2 (Nat.ltb_lt _ _) Hs). apply in_map. apply In_enumerate. rewrite Eps. reflexivity. }
    apply in_map_iff in I as (q & Eq & Hq). destruct (Hspl q Hq) as (l' & Hl').
    assert (Ejq : q_j q = [-1; f_j f2]) by (change (q_j q) with (q_j (erase q)); now rewrite Eq).
    assert (Enq : q_n q = [n2; 0%nat]) by (change (q_n q) with (q_n (erase q)); now rewrite Eq).
    destruct (format_time_run _ _ _ _ _ _ _ _ _ Hl') as (A1 & A2); [rewrite Enq; cbn; lia|rewrite Ejq; discriminate|].
    rewrite Ejq in A1, A2. cbn [List.last] in A1, A2. auto. }
  assert (Hdiv : if is_local_avg a then Nat.divide (p2 ls) Np else l2T = p_J (jp_base p) /\ ls = p_J (jp_base p)).
  { destruct a; cbn [is_local_avg]; [|destruct HTJ as [G1 G2]; [discriminate|]; split; lia..].
    unfold order0 in R1. cbn [is_local_avg] in R1. inv R1 as w3 E1. inv R1 as w4 E4. inv R1 as w5 E5. cbn [numpy_backend be_cdgmm be_subsample] in E4, E5.
    destruct (np_cdgmm_inv _ _ _ E4) as (S5 & _).
    assert (Hd : Nat.divide (p2 ls) (Z.to_nat (s_pad_left (t_base t)) + Z.to_nat N + Z.to_nat (s_pad_right (t_base t)))).
    { eapply (np_subsample_inv w4 w5 [prod batch; 1]%nat); [congruence|cbn; lia|exact Hls|exact E5]. }
    rewrite El, Er, !Nat2Z.id, <- EN2 in Hd. exact Hd. }
  destruct (jadm_run np Np (p_J (jp_base p)) q1 q2 T l2T (s_phi (t_base t)) (s_psi1 (t_base t)) (s_psi2 (t_base t)) U0 ls (is_local_avg a) (P0, S1, Ys))
    as (HT & HJ2); try assumption.
  { apply (ok_psi1 _ _ OK). }
  { intros Hloc f1 f2 Hf1 Hf2 Hlt. apply (Hsec ltac:(destruct a; [reflexivity|discriminate..]) f1 f2 Hf1 Hf2 Hlt). }
  assert (Hkeys : ls <= Z.of_nat mx).
  { unfold mx. destruct a; [|destruct HTJ as [G1 G2]; [discriminate|]; lia..].
    unfold jfinish0 in E0f. inv E0f as w3 E1. clear E0f. rewrite Els in E1. cbn [bind] in E1. inv E1 as w4 E4. clear E1.
    rewrite Est in E4. destruct (Z.le_gt_cases ls (Z.max l2T (p_J (jp_base p)))) as [G|G]; [lia|].
    exfalso. rewrite dict_get_border_out in E4; [discriminate|]. right. lia. }
  assert (Hroom : (List.length (s_psi1 (t_base t)) <= Nfr)%nat).
  { rewrite ES1 in Efirst. unfold frequency_scattering in Efirst. inv Efirst as w3 E1. inv Efirst as w4 E4. cbn [w_n1_max numpy_backend be_pad_frequency] in E4.
    unfold np_pad_frequency in E4. inv E4 as w5 E5. destruct w5 as [pre nn]. rewrite HNfr in E4.
    destruct (Z.ltb_spec (Z.of_nat Nfr - Z.of_nat (List.length (s_psi1 (t_base t)))) 0); [discriminate|lia]. }
  assert (HF : jadm_fr (s_psi1 (t_base t)) (t_phi_fr t) (t_psis_fr t) Nfr lsf (is_local_avg a_fr)).
  { constructor; try assumption. intros psi Hpsi. destruct (Lpsi psi Hpsi) as (L1 & L2 & L3). split; [lia|]. split; [exact L2|].
    apply L3. unfold kf. destruct (is_local_avg a_fr); lia. }
  exists l, r, mx, ls, a, Nfr, lsf, a_fr. rewrite EN2 in HT.
  constructor; try assumption.
  - split; [exact Hkeys|]. intros f Hf. specialize (HJ2 f Hf). unfold mx. lia.
  - intros Hloc f Hf Hs. rewrite <- EN2.
    assert (exists f1, In f1 (s_psi1 (t_base t)) /\ f_j f1 < f_j f) as (f1 & H1 & Hj).
    { unfold smaller in Hs. destruct (List.filter _ (s_psi1 (t_base t))) as [|f1 ?] eqn:E'; [cbn in Hs; lia|].
      assert (I : In f1 (List.filter (fun f' => f_j f' <? f_j f) (s_psi1 (t_base t)))) by (rewrite E'; now left).
      apply filter_In in I as [I1 I2]. exists f1. split; [exact I1|now apply Z.ltb_lt]. }
    destruct (Hsec Hloc f1 f H1 Hf Hj) as (_ & w & Hw'). eapply phi_levels; [exact EF|apply HJ2, Hf|exact Hw'].
  - intros Hloc. subst a_fr. cbn [is_local_avg] in *.
    (* the padded batch in rows *)
    assert (HP : forall psi, In psi pos -> Nat.divide (p2 lsf) Nfr /\ Z.min (f_j psi) (f_j (t_phi_fr t)) = Z.min (f_j psi) lsf /\
            level_ok (t_phi_fr t) (Z.min (f_j psi) lsf) (Nfr / p2 (Z.min (f_j psi) lsf))).
    { intros psi Hpsi. assert (Hin : In psi (t_psis_fr t)) by (rewrite Eps; right; apply in_app_iff; now left).
      destruct (of_rows_intro x batch (Z.to_nat N) Hw Hsh) as (rows & Ex & Rx). assert (Dx : nd_dtype x = Real) by congruence. rewrite Dx in Ex.
      rewrite Ex, np_reshape_input_of in E2 by lia. injection E2 as <-.
      assert (R1x : rows_ok [prod batch; 1%nat] (Z.to_nat N) rows) by (eapply rows_ok_pre; [|exact Rx]; cbn; lia).
      rewrite El, Er in E3. rewrite np_pad_of in E3 by assumption. injection E3 as <-.
      set (rows' := map (pad_reflect_row complex_ops l r (Z.to_nat N)) rows) in *.
      assert (R2 : rows_ok [prod batch; 1%nat] (l + Z.to_nat N + r) rows') by (eapply rows_ok_map; [|exact R1x]; intros; apply pad_row_length).
      assert (HB : List.length rows' = prod batch) by (destruct R2 as [E' _]; cbn in E'; lia).
      rewrite (joint_rows complex_ops complex_ops_ok sgnR _ _ _ _ _ _ _ _ Nfr _ _ HT HF (prod batch) rows' R2) in Eg. injection Eg as _ <-.
      assert (Hnn : In psi (nonneg sgnR (t_psis_fr t))).
      { apply filter_In. split; [exact Hin|]. rewrite Forall_forall in Hpos. specialize (Hpos psi Hpsi). now rewrite sgnR_pos. }
      destruct (In_nth_error _ _ Hnn) as (nf & Hnf). apply In_enumerate in Hnf.
      destruct (Hspl (jcoef complex_ops sgnR Nfr lsf true (prod batch) rows' [-1] [] (List.length (s_psi1 (t_base t))) ((l + Z.to_nat N + r) / p2 ls)
          (time1 complex_ops (s_phi (t_base t)) (s_psi1 (t_base t)) (l + Z.to_nat N + r) ls (is_local_avg a)) (nf, psi))) as (l' & Hl').
      { apply in_app_iff. left. unfold first_paths. apply (in_map _ _ (nf, psi)). exact Hnf. }
      destruct (Lpsi psi Hin) as (L1 & L2 & L3).
      assert (Hc : (0 < (l + Z.to_nat N + r) / p2 ls)%nat) by (apply div_p2_pos; [lia|apply (jt_div _ _ _ _ _ _ HT)]).
      destruct (format_fr_run _ _ _ _ _ _ _ _ _ (prod batch) (Nfr / p2 (kf lsf true psi)) ((l + Z.to_nat N + r) / p2 ls) Hl') as (K1 & K2 & w & K3 & K4);
        try reflexivity; try assumption.
      { unfold jcoef. cbn [set_coef q_spin slot snd]. rewrite Forall_forall in Hpos. specialize (Hpos psi Hpsi). now rewrite sgnR_pos. }
      unfold jcoef in K1, K2, K3. cbn [set_coef q_j_fr slot snd] in K1, K2, K3.
      set (k := Z.min (f_j psi) (f_j (t_phi_fr t))) in *.
      assert (Hk0 : 0 <= k) by (unfold k; lia).
      destruct (Lphi k w Hk0 K3) as (D & LL). destruct LL as (w' & W1 & W2 & W3 & W4).
      apply py_index_nonneg in K3; [|exact Hk0]. assert (w' = w) by congruence. subst w'.
      specialize (K4 _ W2). unfold kf in *.
      assert (Ek : k = Z.min (f_j psi) lsf) by (apply (p2_inj _ _ Nfr); try assumption; try lia; apply L3; lia).
      rewrite <- Ek in *. split; [|split; [reflexivity|]].
      - destruct D as [y Hy]. rewrite Hy, Nat.div_mul in K2 by (pose proof (p2_pos k); lia). destruct K2 as [y' ->].
        exists y'. rewrite Hy. replace (p2 lsf) with (p2 (lsf - k) * p2 k)%nat by (rewrite <- p2_add by lia; f_equal; lia). lia.
      - exists w. auto. }
    intros psi Hpsi Hsp. rewrite Eps in Hpsi. destruct Hpsi as [<-|Hpsi]; [exfalso; apply Hsp; rewrite Hlow; apply sgnR_0|].
    apply in_app_iff in Hpsi as [Hpsi|Hpsi]; [now apply HP|].
    pose proof (in_map (fun f => (f_xi f, f_sigma f, f_j f)) _ _ Hpsi) as I. rewrite Hneg in I.
    apply in_map_iff in I as (f & Ef' & Hf). injection Ef' as _ _ Ej'. rewrite <- Ej'. now apply HP.
Qed.
