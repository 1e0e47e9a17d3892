(** Constructed TimeFrequencyScattering objects are ready to run: everything the transform looks up was tabulated. *)
From Coq Require Import String Reals ZArith QArith Qpower Qminmax List Bool Arith Lia Lqa.
From Coquelicot Require Import Complex.
From Verif Require Import Base BaseProofs NdArray Backend Core1d Utils1d Utils1dProofs Frontend1d Frontend1dProofs NdProofs Rows1d FrontRows Mats
  Factory1d FactoryProofs ComplexOps FilterBank1d FilterBank1dProofs Construct1d
  Jtfs JtfsFront JtfsProofs JtfsKeys JtfsRows JtfsFmt JtfsFull JtfsConstruct JtfsMeta JtfsTotal PropJtfs.
Import ListNotations.
Local Open Scope Z_scope.
Local Open Scope res_scope.

(** The constructor of Scattering1D only records the oversampling. *)
Definition over0 (p : params) : params := {| p_J := p_J p; p_shape := p_shape p; p_Q := p_Q p; p_T := p_T p; p_stride := p_stride p;
  p_max_order := p_max_order p; p_oversampling := OInt 0 |}.
Definition s_over0 {W P} (s : scat1d W P) : scat1d W P := {| s_phi := s_phi s; s_psi1 := s_psi1 s; s_psi2 := s_psi2 s; s_max_order := s_max_order s;
  s_out_type := s_out_type s; s_oversampling := OInt 0; s_pad_left := s_pad_left s; s_pad_right := s_pad_right s;
  s_ind_start := s_ind_start s; s_ind_end := s_ind_end s; s_log2_stride := s_log2_stride s; s_average := s_average s |}.
Lemma new_over0 {K P} (o : ops K) (F : formulas K P) support p out s : p_oversampling p = ONone ->
  new_scattering1d o F support p out = Ok s -> new_scattering1d o F support (over0 p) out = Ok (s_over0 s).
Proof.
  intros E H. assert (EB : build support (over0 p) = build support p) by (unfold build; rewrite E; reflexivity).
  unfold new_scattering1d in *. rewrite EB. inv_bind H. cbn [bind over0 p_Q p_T p_J p_max_order p_oversampling] in *.
  inv_bind H. inv_bind H. inv_bind H. inv_bind H. destruct v3 as [phi psis].
  destruct psis as [|psi1s [|psi2s [|]]]; try discriminate. inv_bind H. injection H as <-.
  rewrite E0. cbn [bind]. rewrite E1. cbn [bind]. rewrite E2. cbn [bind]. rewrite E3. cbn [bind]. rewrite E4. cbn [bind]. rewrite E5. reflexivity.
Qed.

(** What is asked of the parameters of a constructed object: integer Q with Q2 <= Q1, and strides between the largest
    scale of the wavelets that are subsampled and the scale of averaging; and as many padded frequency bins as there
    are wavelets.  [default_aligned] shows that the default strides qualify. *)
Record aligned (p : jparams) (t : jtfs (nd C) R) (N ls : Z) (a : avg) (lsf : Z) (a_fr : avg) : Prop := {
  al_N : N_input_of (p_shape (jp_base p)) = Ok N; al_N1 : 1 <= N;
  al_J : 0 <= p_J (jp_base p); al_J_fr : 0 <= jp_J_fr p;
  al_Q : exists q1 q2, Q_of (p_Q (jp_base p)) = Ok [QI q1; QI q2] /\ 1 <= q2 <= q1;
  al_stride : s_log2_stride (t_base t) = Ok ls; al_avg : s_average (t_base t) = Ok a;
  al_stride_fr : t_log2_stride_fr t = Ok lsf; al_avg_fr : t_average_fr t = Ok a_fr;
  al_time : a = Local -> (forall f2, In f2 (s_psi2 (t_base t)) -> f_j f2 <= ls) /\
            exists l2T, log2_T_of (p_T (jp_base p)) (p_J (jp_base p)) N = Ok l2T /\ ls <= l2T;
  al_fr : a_fr = Local -> lsf <= f_j (t_phi_fr t) /\
          (forall psi, In psi (t_psis_fr t) -> sgnR (f_xi psi) <> 0 -> f_j psi <= lsf);
  al_room : Z.of_nat (List.length (s_psi1 (t_base t))) <= f_N (t_phi_fr t)
}.
Lemma levels_level_ok {P'} (full : nd C) n stop (f : Core1d.filter (nd C) P') k : nd_shape full = [n] -> nd_dtype full = Real ->
  List.length (nd_data full) = n -> levels_upto complex_ops full stop = Ok (f_levels f) -> 0 <= k < Z.max stop 1 ->
  Nat.divide (p2 k) n /\ level_ok f k (n / p2 k).
Proof.
  intros H1 H2 H3 H4 Hk. destruct (levels_upto_ok _ _ _ _ _ H1 H2 H3 H4 k Hk) as (D & w & W1 & W2 & W3 & W4).
  split; [exact D|]. exists w. rewrite W3. repeat split; try assumption. discriminate.
Qed.

Lemma F_default T J N F a : T_of T J N = Ok F -> average_of T J N = Ok a -> a <> Local -> F = Qpower 2 J.
Proof.
  unfold T_of, average_of. destruct (parse_T T J N) as [[F' a']|] eqn:E; [|discriminate]. cbn [bind fst snd].
  intros H1 H2 Ha. injection H1 as <-. injection H2 as <-. destruct T as [| | |t]; cbn in E; try discriminate; try congruence.
  destruct (Qltb _ t); [discriminate|]. destruct (Qeq_bool t 0); [congruence|]. destruct (Qltb t 1); [discriminate|]. congruence.
Qed.

Lemma T_of_ge1 T J N F : 0 <= J -> T_of T J N = Ok F -> (1 <= F)%Q.
Proof. unfold T_of. destruct (parse_T T J N) as [[F' a']|] eqn:E; [|discriminate]. cbn [bind fst]. intros HJ H. injection H as <-. eapply parse_T_ge1; eassumption. Qed.

Theorem new_jready support p out t N ls a lsf a_fr : (forall n t, 0 <= support n t) ->
  TimeFrequencyScattering support p out = Ok t -> aligned p t N ls a lsf a_fr ->
  exists l r mx, jready sgnR t (Z.to_nat N) l r mx ls a (Z.to_nat (f_N (t_phi_fr t))) lsf a_fr.
Proof.
  intros Hsup H [EN HN HJ HJf (q1 & q2 & EQ & Hq) Els Ea Elsf Eaf Htime Hfr Hroom].
  pose proof (constructed_jtfs_ok _ _ _ _ HJ HJf H) as OK.
  pose proof (new_jtfs_spun _ _ _ _ HJf H) as [_ Hsc].
  pose proof (constructed_psi1 _ _ _ _ _ _ HJ H EQ) as (_ & _ & Hlen).
  pose proof H as H0. apply new_jtfs_inv in H0.
  destruct H0 as (pb & Q_fr & q0 & q1' & F & Epb & EB & EQf & EQ' & ET & HNf & Elsf' & Eaf' & _ & Ephi & phi1 & psis & Epsis & Eps).
  assert (EQ2 : Q_of (p_Q pb) = Ok [QI q1; QI q2]) by (subst pb; exact EQ). rewrite EQ2 in EQ'. injection EQ' as <- <-.
  (* time *)
  assert (HoN : p_oversampling pb = ONone) by (subst pb; reflexivity).
  pose proof (new_over0 _ _ _ _ _ _ HoN EB) as EB0.
  pose proof EB as EB1. apply new_inv in EB1. destruct EB1 as (b & Qs & T & l2T & phi & psi1s & psi2s & Hb & EQ3 & ETb & El2T & EFb & _ & Es).
  assert (EbN : b_N b = N). { destruct (build_inv _ _ _ Hb) as (st & T0 & l0 & r0 & EN' & _). subst pb. cbn in EN'. congruence. }
  rewrite EbN in *.
  assert (El2T' : log2_T_of (p_T (jp_base p)) (p_J (jp_base p)) N = Ok l2T) by (subst pb; exact El2T).
  assert (Hls : a <> Local -> ls = l2T).
  { intros Hna. rewrite Es in Els. cbn [s_log2_stride] in Els. rewrite Es in Ea. cbn [s_average] in Ea.
    destruct (b_stride b) as [|z|q|]; cbn [log2_stride_of] in Els; try discriminate.
    - congruence.
    - destruct (z <=? 0); [discriminate|]. destruct (negb _); [discriminate|]. rewrite Ea in Els. cbn [bind] in Els. destruct a; try discriminate; congruence. }
  assert (HlsL : a = Local -> (forall f2, In f2 (s_psi2 (t_base t)) -> f_j f2 <= ls) /\ ls <= l2T).
  { intros E. destruct (Htime E) as (G1 & l2T' & G2 & G3). split; [exact G1|]. congruence. }
  destruct (new_ready_gen complex_ops formulas1d formulas1d_sane support (over0 pb) out (s_over0 (t_base t)) N q1 q2 ls a l2T)
    as (Np & T' & HNp & Hl2T & Hls0 & HTJ & _ & Epad & EF & HR); try assumption; try reflexivity; try lia.
  { subst pb; exact EN. } { subst pb; exact HJ. } { subst pb; cbn; lia. }
  cbn [s_over0 s_phi s_psi1 s_psi2 s_max_order p_J over0] in EF, HR, Epad, HTJ.
  assert (EpJ : p_J pb = p_J (jp_base p)) by (subst pb; reflexivity). cbn [over0 p_J] in EF. rewrite EpJ in *.
  destruct (factory_adm _ _ formulas1d_sane _ _ _ _ _ _ _ _ _ HNp HJ Hq Hl2T EF) as (A1 & A2 & A3).
  assert (Hlsb : ls <= l2T /\ (a <> Local -> ls = p_J (jp_base p))).
  { destruct a; [destruct (HlsL eq_refl); split; [assumption|congruence]| |]; rewrite Hls, HTJ by discriminate; lia. }
  assert (HA : adm (s_phi (t_base t)) (s_psi1 (t_base t)) (s_psi2 (t_base t)) true Np ls true) by (apply A2; lia).
  destruct HR as (l & r & EN2 & HR).
  { destruct a; cbn [is_local]; [apply A2; lia|apply A3; [lia|]; rewrite HTJ by discriminate; lia|apply A3; [lia|]; rewrite HTJ by discriminate; lia]. }
  assert (Hkk : forall f, In f (s_psi1 (t_base t)) \/ In f (s_psi2 (t_base t)) -> kk ls true f = kk ls (is_local_avg a) f).
  { intros f Hf. specialize (A1 f Hf). unfold kk. destruct a; cbn [is_local_avg]; try reflexivity; destruct Hlsb as [_ Hb']; rewrite Hb' by discriminate; lia. }
  assert (Hj2 : forall f2, In f2 (s_psi2 (t_base t)) -> f_j f2 <= ls).
  { intros f2 Hf2. specialize (A1 f2 (or_intror Hf2)). destruct a; [now apply HlsL| |]; destruct Hlsb as [_ Hb']; rewrite Hb' by discriminate; lia. }
  (* frequency *)
  pose proof (factory_inv1 _ _ _ _ _ _ _ _ _ Ephi ltac:(cbn; lia)) as (Fj & _ & FN & _ & _ & Flev).
  pose proof (factory_inv1 _ _ _ _ _ _ _ _ _ Epsis ltac:(cbn; lia)) as (Gj & _ & _ & _ & qf & -> & ps & Eps' & Gm & Glev).
  injection Eps' as <-. rewrite log2_floor_pow2 in * by exact HJf.
  set (Nfr := Z.to_nat (N_padded_fr_of ((p_J (jp_base p) + 1) * q1) (jp_J_fr p) F)) in *.
  rewrite FN, Nat2Z.id.
  destruct (sane_gauss _ formulas1d_sane Nfr (fo_sigma_low formulas_fr F)) as (M1 & M2 & M3).
  destruct (sane_gauss _ formulas1d_sane Nfr (fo_sigma_low formulas_fr (Qpower 2 (jp_J_fr p)))) as (M4 & M5 & M6).
  assert (Lphi : forall k, 0 <= k <= f_j (t_phi_fr t) -> Nat.divide (p2 k) Nfr /\ level_ok (t_phi_fr t) k (Nfr / p2 k)).
  { intros k Hk. apply (levels_level_ok _ _ _ (t_phi_fr t) k M1 M2 M3 Flev). rewrite Fj in Hk. lia. }
  assert (DJ : forall k, 0 <= k <= jp_J_fr p -> Nat.divide (p2 k) Nfr).
  { intros k Hk. eapply (levels_level_ok _ _ _ phi1 k M4 M5 M6 Glev). lia. }
  assert (L1 : forall psi, In psi (t_psis_fr t) -> level_ok psi 0 Nfr).
  { rewrite Eps. intros psi [<-|Hpsi].
    - destruct (levels_level_ok _ _ _ phi1 0 M4 M5 M6 Glev) as [_ L]; [lia|]. now rewrite p2_0, Nat.div_1_r in L.
    - destruct (layer_In _ _ _ _ _ _ _ _ Gm Hpsi) as (xi & sg & Hin & _ & _ & _ & El).
      destruct (sane_morlet _ formulas1d_sane Nfr xi sg) as (S1 & S2 & S3).
      destruct (levels_level_ok _ _ _ psi 0 S1 S2 S3 El) as [_ L]; [lia|]. now rewrite p2_0, Nat.div_1_r in L. }
  rewrite Forall_forall in Hsc.
  exists l, r, (Z.to_nat (Z.max l2T (p_J (jp_base p)))).
  destruct HR. cbn [s_over0 s_pad_left s_pad_right s_ind_start s_ind_end] in *.
  constructor; try assumption.
  - rewrite <- EN2. constructor.
    + exact HNp.
    + exact Hls0.
    + apply (adm_phi _ _ _ _ _ _ _ HA eq_refl).
    + intros _. apply (adm_phi _ _ _ _ _ _ _ HA eq_refl).
    + apply (ok_psi1 _ _ OK).
    + intros f1 Hf1. destruct (adm_psi1 _ _ _ _ _ _ _ HA f1 Hf1) as (G1 & G2 & _ & G4). specialize (G4 eq_refl).
      rewrite <- Hkk by auto. repeat split; try assumption. unfold kk. lia.
    + intros f1 f2 Hf1 Hf2 Hlt. destruct (adm_psi2 _ _ _ _ _ _ _ HA eq_refl f1 f2 Hf1 Hf2 Hlt) as (G1 & _). rewrite <- Hkk by auto.
      split; [assumption|now apply Hj2].
  - constructor.
    + exact FN.
    + rewrite FN in Hroom. lia.
    + intros psi Hpsi. specialize (Hsc psi Hpsi). cbn beta in Hsc. split; [lia|]. split; [now apply L1|].
      apply DJ. unfold kf. pose proof (ok_stride _ _ OK lsf Elsf). destruct (is_local_avg a_fr); lia.
    + apply (ok_stride _ _ OK lsf Elsf).
  - split; [lia|]. intros f Hf. specialize (A1 f (or_intror Hf)). lia.
  - intros _ f Hf Hs. rewrite <- EN2.
    assert (exists f1, In f1 (s_psi1 (t_base t)) /\ f_j f1 < f_j f) as (f1 & H1 & Hj).
    { unfold smaller in Hs. destruct (List.filter _ (s_psi1 (t_base t))) as [|f1 ?] eqn:E; [cbn in Hs; lia|].
      assert (I : In f1 (List.filter (fun f' => f_j f' <? f_j f) (s_psi1 (t_base t)))) by (rewrite E; now left).
      apply filter_In in I as [I1 I2]. exists f1. split; [exact I1|now apply Z.ltb_lt]. }
    destruct (adm_psi2 _ _ _ _ _ _ _ HA eq_refl f1 f H1 Hf Hj) as (_ & _ & G). specialize (G eq_refl).
    replace (kk ls true f) with (f_j f) in G by (specialize (Hj2 f Hf); unfold kk; lia). exact G.
  - intros E psi Hpsi Hsp. destruct (Hfr E) as [Hf1 Hf2]. pose proof (ok_stride _ _ OK lsf Elsf). specialize (Hsc psi Hpsi). cbn beta in Hsc. split; [apply Lphi; lia|].
    split; [|apply Lphi; lia]. specialize (Hf2 psi Hpsi Hsp). lia.
Qed.
