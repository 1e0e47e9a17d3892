(** C18, completed: exactly when meta() and output_size() return. *)
From Coq Require Import String Reals ZArith QArith List Bool Arith Lia Lra.
From Coquelicot Require Import Complex.
From Verif Require Import Base BaseProofs NdArray Backend Core1d Core1dProofs Utils1d Utils1dProofs Frontend1d Frontend1dProofs Spec1d Factory1d FactoryProofs ComplexOps NdProofs FilterBank1d FilterBank1dProofs Construct1d PropFilters1d.
Import ListNotations.
Local Open Scope Z_scope.
Local Open Scope res_scope.

(** A run without averaging on the dry backend returns if the filters it reads are tabulated. *)
Lemma dry_total {W P} (phi : Core1d.filter W P) psi1 psis ls :
  (forall f1, In f1 psi1 -> exists w, py_index (f_levels f1) 0 = Ok w) ->
  (forall psi2 f1 f2, nth_error (psi1 :: psis) 1 = Some psi2 -> In f1 psi1 -> In f2 psi2 -> f_j f1 < f_j f2 -> exists w, py_index (f_levels f2) (f_j f1) = Ok w) ->
  exists gen, scattering1d (dry_backend W) tt phi (psi1 :: psis) ls false = Ok gen.
Proof.
  intros H1 H2. unfold scattering1d. cbn [be_rfft dry_backend bind order0]. change (py_index (psi1 :: psis) 0) with (Ok psi1). cbn [bind].
  assert (G : exists ps, mapM (order1 (dry_backend W) phi (nth_error (psi1 :: psis) 1) tt ls false) (enumerate psi1) = Ok ps).
  { apply mapM_total. intros [n1 f1] Hf1. apply In_enumerate, nth_error_In in Hf1. unfold order1, order1_modulus. destruct (H1 f1 Hf1) as [w ->].
    cbn [bind be_cdgmm be_subsample be_ifft be_modulus be_rfft dry_backend orb].
    destruct (nth_error (psi1 :: psis) 1) as [psi2|] eqn:E; cbn [bind]; [|eauto].
    assert (G2 : exists ps, mapM (order2 (dry_backend W) phi tt n1 (f_j f1) (f_j f1) ls false) (enumerate psi2) = Ok ps).
    { apply mapM_total. intros [n2 f2] Hf2. apply In_enumerate, nth_error_In in Hf2. unfold order2. destruct (Z.ltb_spec (f_j f1) (f_j f2)); [|eauto].
      destruct (H2 psi2 f1 f2 eq_refl Hf1 Hf2 H) as [w2 ->]. cbn [bind be_cdgmm be_subsample be_ifft be_modulus dry_backend]. eauto. }
    destruct G2 as [ps ->]. cbn [bind]. eauto. }
  destruct G as [ps ->]. cbn [bind]. eauto.
Qed.

Lemma upto_length {K} (o : ops K) full stop l : levels_upto o full stop = Ok l -> Z.of_nat (length l) = Z.max 1 stop.
Proof. intros H. unfold levels_upto in H. inv_bind H. injection H as <-. apply mapM_length in E. unfold zrange in E. rewrite map_length, seq_length in E. cbn [length]. lia. Qed.

(** Levels of the wavelets of a constructed object. *)
Lemma bank_levels N J q1 q2 T l2T phi psi1s psi2s : 0 <= J -> 1 <= q2 <= q1 -> 0 <= l2T ->
  filter_factory complex_ops formulas1d N J [QI q1; QI q2] T l2T = Ok (phi, [psi1s; psi2s]) ->
  (forall f, In f psi1s -> 0 <= f_j f /\ exists w, py_index (f_levels f) 0 = Ok w) /\
  (forall f1 f2, In f1 psi1s -> In f2 psi2s -> f_j f1 < f_j f2 -> ((exists w, py_index (f_levels f2) (f_j f1) = Ok w) <-> f_j f1 <= l2T)).
Proof.
  intros HJ Hq Hl H. pose proof (factory_inv _ _ _ _ _ _ _ _ _ _ _ H) as (E1 & E2 & _ & _).
  assert (J1 : forall f, In f psi1s -> 0 <= f_j f).
  { intros f Hf. destruct (layer_In _ _ _ _ _ _ _ _ E1 Hf) as (xi & s & Hin & _ & _ & -> & _). apply (sane_j _ formulas1d_sane J q1); [lia|lia|exact Hin]. }
  split.
  - intros f Hf. split; [now apply J1|]. destruct (layer_In _ _ _ _ _ _ _ _ E1 Hf) as (xi & s & _ & _ & _ & _ & El). apply upto_length in El.
    destruct (f_levels f) as [|w l]; [cbn in El; lia|]. now exists w.
  - intros f1 f2 Hf1 Hf2 Hlt. pose proof (J1 f1 Hf1). destruct (layer_In _ _ _ _ _ _ _ _ E2 Hf2) as (xi & s & Hin & _ & _ & Ejf & El). apply upto_length in El.
    destruct (sane_max _ formulas1d_sane J q1 q2 xi s HJ Hq Hin) as (xi' & s' & Hin' & Hle).
    destruct (layer_In' _ _ _ _ _ _ _ _ _ E1 Hin') as (f' & Hf' & _ & _ & Ejf').
    assert (f_j f' <= upd_max_j 0 psi1s) by (apply upd_max_j_ge; assumption).
    assert (G : (exists w, py_index (f_levels f2) (f_j f1) = Ok w) <-> f_j f1 < Z.of_nat (length (f_levels f2))).
    { split.
      - intros [w Hw]. apply py_index_nonneg in Hw; [|lia]. assert (Hn : nth_error (f_levels f2) (Z.to_nat (f_j f1)) <> None) by congruence. apply nth_error_Some in Hn. lia.
      - intros Hn. destruct (nth_error (f_levels f2) (Z.to_nat (f_j f1))) as [w|] eqn:Ew; [|apply nth_error_None in Ew; lia]. exists w. now apply py_index_nonneg. }
    rewrite G, El. lia.
Qed.

(** meta() and output_size() return exactly when no second-order path starts from a first-order wavelet whose scale exceeds log2(T); otherwise
    they raise IndexError. *)
Theorem C18_meta_returns : forall support p out s N q1 q2 ls l2T,
  Scattering1D support p out = Ok s -> N_input_of (p_shape p) = Ok N -> 0 <= p_J p -> 1 <= p_max_order p <= 2 ->
  Q_of (p_Q p) = Ok [QI q1; QI q2] -> 1 <= q2 <= q1 -> log2_T_of (p_T p) (p_J p) N = Ok l2T -> s_log2_stride s = Ok ls ->
  let fine := p_max_order p = 1 \/ forall f1 f2, In f1 (s_psi1 s) -> In f2 (s_psi2 s) -> f_j f1 < f_j f2 -> f_j f1 <= l2T in
  ((exists m k, meta s = Ok m /\ output_size s = Ok k) <-> fine) /\
  (~ fine -> meta s = Err IndexError /\ output_size s = Err IndexError).
Proof.
  intros support p out s N q1 q2 ls l2T Hs EN HJ Hmo EQ Hq ET Els fine.
  pose proof Hs as H. apply new_inv in H. destruct H as (b & Qs & T & l & phi & psi1s & psi2s & Hb & EQ' & ET1 & ET2 & EF & _ & Es).
  assert (HbN : b_N b = N). { destruct (build_inv _ _ _ Hb) as (st & T' & l' & r & EN' & _). congruence. }
  rewrite EQ in EQ'. injection EQ' as <-. rewrite HbN in *. rewrite ET in ET2. injection ET2 as <-.
  assert (Hl2T : 0 <= l2T).
  { unfold log2_T_of in ET. rewrite ET1 in ET. cbn [bind] in ET. injection ET as <-. unfold T_of in ET1. destruct (parse_T _ _ _) as [[T' a']|] eqn:Ep; [|discriminate].
    cbn in ET1. injection ET1 as <-. apply (log2_floor_spec T' (p_J p)). apply (parse_T_ge1 _ _ _ _ _ HJ Ep). }
  destruct (bank_levels _ _ _ _ _ _ _ _ _ HJ Hq Hl2T EF) as (L1 & L2).
  assert (E1 : s_psi1 s = psi1s) by (rewrite Es; reflexivity). assert (E2 : s_psi2 s = psi2s) by (rewrite Es; reflexivity).
  assert (Emo : s_max_order s = p_max_order p) by (rewrite Es; reflexivity).
  assert (Hfine : fine -> exists m, meta s = Ok m).
  { intros Hf. destruct (psis_of_cases s ltac:(lia)) as [[M Eps]|[M Eps]]; unfold meta; rewrite Els; cbn [bind]; rewrite Eps, ?E1, ?E2.
    - destruct (dry_total (s_phi s) psi1s [] ls) as [gen ->]; [intros f1 Hf1; apply L1, Hf1|discriminate|]. cbn [bind]. eauto.
    - destruct (dry_total (s_phi s) psi1s [psi2s] ls) as [gen ->]; [intros f1 Hf1; apply L1, Hf1| |cbn [bind]; eauto].
      intros psi2 f1 f2 Hp Hf1 Hf2 Hlt. injection Hp as <-. apply L2; try assumption. destruct Hf as [Hf|Hf]; [lia|]. apply (Hf f1 f2); congruence. }
  assert (Hback : forall m, meta s = Ok m -> fine).
  { intros m Hm. apply meta_inv in Hm. destruct Hm as (ls' & gen & _ & Hg & _). destruct (psis_of_cases s ltac:(lia)) as [[M Eps]|[M Eps]]; [left; lia|].
    right. rewrite E1, E2 in *. intros f1 f2 Hf1 Hf2 Hlt. rewrite Eps in Hg. apply (L2 f1 f2 Hf1 Hf2 Hlt). exact (lookup2_of_run _ _ _ _ _ _ _ _ Hg f1 f2 Hf1 Hf2 Hlt). }
  split; [split|].
  - intros (m & k & Hm & _). eapply Hback, Hm.
  - intros Hf. destruct (Hfine Hf) as [m Hm]. exists m. unfold output_size. rewrite Hm. cbn [bind]. eauto.
  - intros Hn. assert (Em : meta s = Err IndexError).
    { destruct (meta s) as [m|e] eqn:Em; [exfalso; eapply Hn, Hback, eq_refl|]. unfold meta in Em. rewrite Els in Em. cbn [bind] in Em.
      destruct (scattering1d (dry_backend (nd C)) tt (s_phi s) (psis_of s) ls false) as [gen|e'] eqn:Eg; [discriminate|]. cbn [bind] in Em. rewrite <- Em. f_equal.
      eapply dry_err, Eg. }
    split; [exact Em|]. unfold output_size. now rewrite Em.
Qed.
Print Assumptions C18_meta_returns.

(** In particular when log2(T) >= J - 2, as with the default T. *)
Theorem C18_meta_total_partial : forall support p out s N q1 q2 ls l2T,
  Scattering1D support p out = Ok s -> N_input_of (p_shape p) = Ok N -> 0 <= p_J p -> 1 <= p_max_order p <= 2 ->
  Q_of (p_Q p) = Ok [QI q1; QI q2] -> 1 <= q2 <= q1 -> log2_T_of (p_T p) (p_J p) N = Ok l2T -> s_log2_stride s = Ok ls ->
  p_J p - 2 <= l2T -> exists m k, meta s = Ok m /\ output_size s = Ok k.
Proof.
  intros support p out s N q1 q2 ls l2T Hs EN HJ Hmo EQ Hq ET Els Hle.
  apply (C18_meta_returns support p out s N q1 q2 ls l2T); try assumption. right. intros f1 f2 Hf1 Hf2 Hlt.
  destruct (new_banks _ _ _ _ Hs _ _ EQ) as (_ & P2 & _ & J2). rewrite Forall_forall in J2. specialize (J2 f2 Hf2).
  assert (In (f_xi f2, f_sigma f2) (anden_list (p_J p) q2 sigma0 r_psi)) by (rewrite <- P2; change (f_xi f2, f_sigma f2) with (params_of f2); now apply in_map).
  destruct (sane_j _ formulas1d_sane (p_J p) q2 (f_xi f2) (f_sigma f2)) as [_ B]; [lia|lia|assumption|]. change (fo_j formulas1d) with scale in B.
  destruct (C12_scales_sorted_bounded _ _ _ _ _ _ Hs HJ EQ ltac:(lia)) as (B1 & _). specialize (B1 f1 Hf1). lia.
Qed.
Print Assumptions C18_meta_total_partial.

(** J = 4, Q = 8, N = 100 and the default T. *)
Example C18_total_instance : exists s m k, Scattering1D (fun _ _ => 30) (mk_params 4 100 (QInt 8) TNone SNone 2) "array" = Ok s /\ meta s = Ok m /\ output_size s = Ok k.
Proof.
  destruct C12_C13_C14_instance as (s & Hs & _ & _ & Els & _). exists s.
  destruct (C18_meta_total_partial _ _ _ s 100 8 1 4 4 Hs) as (m & k & G); try reflexivity; try assumption; try (cbn; lia). now exists m, k.
Qed.
