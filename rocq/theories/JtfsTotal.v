(** TimeFrequencyScattering objects exist: the constructor succeeds on a family of parameters. *)
From Coq Require Import String Reals ZArith QArith Qpower List Bool Lia Lra.
From Coquelicot Require Import Complex.
From Verif Require Import Base BaseProofs NdArray Backend Core1d Utils1d Utils1dProofs Frontend1d Core1dProofs
  Frontend1dProofs NdProofs Rows1d FrontRows Factory1d FactoryProofs ComplexOps FilterBank1d FilterBank1dProofs Construct1d
  Jtfs JtfsFront JtfsProofs JtfsKeys JtfsConstruct.
Import ListNotations.
Local Open Scope Z_scope.
Local Open Scope res_scope.

Lemma formulas_fr_scale J q xi s : 0 <= J -> 1 <= q -> In (xi, s) (fo_bank formulas_fr J q) ->
  0 <= fo_j formulas_fr xi s <= Z.max (J - 1) 0 /\ fo_below_nyquist formulas_fr xi (fo_j formulas_fr xi s) = true.
Proof.
  intros HJ Hq H. cbn [fo_bank formulas_fr] in H. unfold spin in H. change (fo_j formulas_fr) with scale.
  assert (exists xi', In (xi', s) (anden_list J q sigma0 r_psi) /\ (xi = xi' \/ xi = - xi')%R) as (xi' & Hx & Hs).
  { apply in_app_iff in H as [H|H]; [eauto|]. apply in_map_iff in H as ([a b] & E & H). injection E as <- <-. eauto. }
  pose proof (anden_elem J q _ _ HJ Hq (anden_list_ok J q HJ Hq) Hx) as [Xa Sa]. cbn [fst snd] in Xa, Sa.
  assert (Es : scale xi s = scale xi' s) by (destruct Hs as [->| ->]; [reflexivity|apply scale_opp]).
  assert (Ea : Rabs xi = xi') by (destruct Hs as [->| ->]; rewrite ?Rabs_Ropp; apply Rabs_pos_eq; lra).
  rewrite Es. split.
  - rewrite Sa. split; [apply scale_ge0; [lra|now apply bandwidth_pos]|apply scale_le; [assumption..|lra]].
  - cbn [fo_below_nyquist formulas_fr formulas1d]. rewrite Ea. destruct Rlt_dec as [|Hn]; [reflexivity|exfalso]. apply Hn.
    apply below_nyquist; [exact Xa|]. rewrite Sa. now apply bandwidth_pos.
Qed.

Theorem new_jtfs_total support p out base q0 q1 qf F :
  let pb := {| p_J := p_J (jp_base p); p_shape := p_shape (jp_base p); p_Q := p_Q (jp_base p); p_T := p_T (jp_base p);
            p_stride := p_stride (jp_base p); p_max_order := 2; p_oversampling := ONone |} in
  let J_fr := jp_J_fr p in let N_fr := N_padded_fr_of ((p_J pb + 1) * q0) J_fr F in
  0 <= J_fr -> Scattering1D support pb out = Ok base -> Q_of (p_Q pb) = Ok [QI q0; q1] -> Q_fr_of (jp_Q_fr p) = Ok (QI qf) ->
  T_of (jp_F p) J_fr ((p_J pb + 1) * q0) = Ok F -> log2_floor F J_fr <= J_fr -> 0 < N_fr ->
  exists t, TimeFrequencyScattering support p out = Ok t /\ t_base t = base.
Proof.
  intros pb J_fr N_fr HJ EB EQ EQf EF HlF HN. pose proof (Q_fr_ge1 _ _ EQf) as Hqf.
  assert (HD : forall k, 0 <= k <= J_fr -> Nat.divide (p2 k) (Z.to_nat N_fr)).
  { intros k Hk. unfold N_fr, N_padded_fr_of. rewrite Z.max_l by exact HJ.
    set (fl := Qround.Qfloor _). exists (Z.to_nat (fl * 2 ^ (J_fr - k))).
    unfold N_fr, N_padded_fr_of in HN. rewrite Z.max_l in HN by exact HJ. fold fl in HN.
    assert (0 < 2 ^ J_fr) by (apply Z.pow_pos_nonneg; lia). assert (0 < 2 ^ (J_fr - k)) by (apply Z.pow_pos_nonneg; lia).
    assert (0 < fl) by nia. apply Nat2Z.inj. rewrite Nat2Z.inj_mul, p2_Z, !Z2Nat.id by nia.
    rewrite <- Z.mul_assoc, <- Z.pow_add_r by lia. do 2 f_equal. lia. }
  assert (HM : forall xi s, nd_shape (fo_morlet formulas_fr (Z.to_nat N_fr) xi s) = [Z.to_nat N_fr]).
  { intros. apply (sane_morlet _ formulas1d_sane). }
  assert (HG : forall s, nd_shape (fo_gauss formulas_fr (Z.to_nat N_fr) s) = [Z.to_nat N_fr]).
  { intros. apply (sane_gauss _ formulas1d_sane). }
  assert (L0 : exists phi0, filter_factory complex_ops formulas_fr (Z.to_nat N_fr) J_fr [] F (log2_floor F J_fr) = Ok (phi0, [])).
  { unfold filter_factory. cbn [make_layers bind].
    destruct (levels_upto_total complex_ops (fo_gauss formulas_fr (Z.to_nat N_fr) (fo_sigma_low formulas_fr F)) (Z.to_nat N_fr)
      (Z.max 0 (1 + log2_floor F J_fr)) (HG _)) as [lev El]; [intros; apply HD; lia|]. rewrite El. cbn [bind]. eauto. }
  assert (L1 : exists phi1 psis, filter_factory complex_ops formulas_fr (Z.to_nat N_fr) J_fr [QI qf] (Qpower 2 J_fr) J_fr = Ok (phi1, [psis]) /\
     forallb (fun f => fo_below_nyquist formulas_fr (f_xi f) (f_j f)) psis = true).
  { destruct (mapM_total (make_psi complex_ops formulas_fr (Z.to_nat N_fr) J_fr 0) (fo_bank formulas_fr J_fr qf)) as [psis Ep].
    { intros [xi s] Hin. unfold make_psi. destruct (levels_upto_total complex_ops (fo_morlet formulas_fr (Z.to_nat N_fr) xi s) (Z.to_nat N_fr)
        (Z.min (Z.min 0 (fo_j formulas_fr xi s)) (1 + J_fr)) (HM _ _)) as [lev El]; [intros; lia|]. rewrite El. cbn [bind]. eauto. }
    assert (Hj : forall f, In f psis -> 0 <= f_j f <= Z.max (J_fr - 1) 0 /\ fo_below_nyquist formulas_fr (f_xi f) (f_j f) = true).
    { intros f Hf. destruct (layer_In _ _ _ _ _ _ _ _ Ep Hf) as (xi & s & Hin & E1 & E2 & E3 & _). rewrite E1, E3.
      now apply (formulas_fr_scale J_fr qf). }
    assert (Hu : upd_max_j 0 psis <= J_fr). { apply upd_max_j_le; [lia|]. intros f Hf. destruct (Hj f Hf). lia. }
    unfold filter_factory. cbn [make_layers]. rewrite Ep. cbn [bind].
    destruct (levels_upto_total complex_ops (fo_gauss formulas_fr (Z.to_nat N_fr) (fo_sigma_low formulas_fr (Qpower 2 J_fr))) (Z.to_nat N_fr)
      (Z.max (upd_max_j 0 psis) (1 + J_fr)) (HG _)) as [lev El]; [intros; apply HD; lia|]. rewrite El. cbn [bind].
    eexists _, psis. split; [reflexivity|]. apply forallb_forall. intros f Hf. now apply Hj. }
  destruct L0 as (phi0 & L0), L1 as (phi1 & psis & L1 & L2).
  unfold new_jtfs. cbn zeta. fold pb. rewrite EB. cbn [bind]. rewrite EQf. cbn [bind]. rewrite EQ. cbn [bind].
  fold J_fr. rewrite EF. cbn [bind]. unfold create_filters_fr. fold N_fr. destruct (Z.leb_spec N_fr 0); [lia|].
  rewrite L0. cbn [bind]. rewrite log2_floor_pow2 by exact HJ. rewrite L1. cbn [bind]. rewrite L2. cbn [bind]. eexists. split; reflexivity.
Qed.

(** Parameters with everything but J, Q, N, J_fr, F and the format at its default. *)
Definition default_jparams (J N q J_fr : Z) (F : tval) (format : string) : jparams :=
  mk_jparams {| p_J := J; p_shape := ShInt N; p_Q := QInt q; p_T := TNone; p_stride := SNone; p_max_order := 2; p_oversampling := ONone |}
    J_fr (QInt 1) F SNone format.
Theorem jtfs_instance : forall support J N q J_fr F FQ out format, (forall n t, 0 <= support n t) ->
  0 <= J -> 1 <= q -> 2 ^ J <= N -> 0 <= J_fr -> T_of F J_fr ((J + 1) * q) = Ok FQ -> log2_floor FQ J_fr <= J_fr ->
  0 < N_padded_fr_of ((J + 1) * q) J_fr FQ ->
  exists t, TimeFrequencyScattering support (default_jparams J N q J_fr F format) out = Ok t.
Proof.
  intros support J N q J_fr F FQ out format Hsup HJ Hq HN HJf EF Hl HNf. pose proof (pow2_pos J HJ).
  set (p := default_jparams J N q J_fr F format).
  destruct (build_total support (jp_base p) N SNone (Qpower 2 J)) as [b Hb];
    [reflexivity|lia|apply Hsup|reflexivity|reflexivity|].
  assert (HbN : b_N b = N).
  { destruct (build_inv _ _ _ Hb) as (st & T & l & r & EN & _). cbn in EN. congruence. }
  destruct (build_plan support _ b Hsup Hb) as (_ & B1 & _); [lia|].
  assert (EQ : Q_of (p_Q (jp_base p)) = Ok [QI q; QI 1]).
  { unfold p, Q_of. cbn [jp_base default_jparams p_Q qval_entries existsb map]. rewrite (proj2 (Qltb_false _ _)); [reflexivity|].
    unfold Qle. cbn. lia. }
  destruct (new_total support (jp_base p) out b q 1 J) as [base Hbase]; try assumption; try lia.
  - cbn [jp_base p default_jparams p_T p_J]. unfold log2_T_of, T_of. cbn [parse_T bind fst]. now rewrite log2_floor_pow2.
  - cbn [jp_base p default_jparams p_J]. assert (2 ^ Z.max J (J - 2) = 2 ^ J) by (f_equal; lia). lia.
  - destruct (new_jtfs_total support p out base q (QI 1) 1 FQ) as [t [Ht _]]; try assumption; [reflexivity|]. now exists t.
Qed.
