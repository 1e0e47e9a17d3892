(** The TimeFrequencyScattering objects built with the real-number filter formulas. *)
From Coq Require Import String Reals ZArith QArith List Bool Lia Lra.
From Coquelicot Require Import Complex.
From Verif Require Import Base BaseProofs NdArray Backend Core1d Utils1d Utils1dProofs Frontend1d Core1dProofs
  Frontend1dProofs NdProofs Rows1d FrontRows Factory1d FactoryProofs ComplexOps FilterBank1d FilterBank1dProofs Construct1d
  Jtfs JtfsFront JtfsProofs JtfsKeys.
Import ListNotations.
Local Open Scope Z_scope.
Local Open Scope res_scope.

(** np.sign. *)
Definition sgnR (x : R) : Z := if Rlt_dec x 0 then -1 else if Rlt_dec 0 x then 1 else 0.

(** base_frontend.py:728-732 filterbank_fr: the generator is spun; 579-582: the assertion uses abs(xi). *)
Definition formulas_fr : formulas C R := {|
  fo_bank := fun J q => spin (anden_list J q sigma0 r_psi);
  fo_j := fo_j formulas1d;
  fo_morlet := fo_morlet formulas1d;
  fo_gauss := fo_gauss formulas1d;
  fo_sigma_low := fo_sigma_low formulas1d;
  fo_xi0 := fo_xi0 formulas1d;
  fo_below_nyquist := fun xi j => fo_below_nyquist formulas1d (Rabs xi) j;
  fo_gt := fo_gt formulas1d
|}.

(** TimeFrequencyScattering(J, J_fr, Q, shape, T, stride, Q_fr, F, stride_fr, out_type, format), NumPy frontend. *)
Notation TimeFrequencyScattering := (new_jtfs complex_ops formulas1d formulas_fr).

Lemma sgnR_pos x : (0 < x)%R -> sgnR x = 1.
Proof. intros H. unfold sgnR. destruct (Rlt_dec x 0); [lra|]. destruct (Rlt_dec 0 x); [reflexivity|lra]. Qed.
Lemma sgnR_neg x : (x < 0)%R -> sgnR x = -1.
Proof. intros H. unfold sgnR. destruct (Rlt_dec x 0); [reflexivity|lra]. Qed.
Lemma sgnR_0 : sgnR 0 = 0.
Proof. unfold sgnR. destruct (Rlt_dec 0 0); [lra|reflexivity]. Qed.

Lemma factory_inv1 {K P} (o : ops K) (F : formulas K P) N J qs T l2T phi psis :
  filter_factory o F N J qs T l2T = Ok (phi, psis) -> (List.length qs <= 1)%nat ->
  f_j phi = l2T /\ f_xi phi = fo_xi0 F /\ f_N phi = Z.of_nat N /\ f_sigma phi = fo_sigma_low F T /\
  match qs with
  | [] => psis = [] /\ levels_upto o (fo_gauss F N (fo_sigma_low F T)) (Z.max 0 (1 + l2T)) = Ok (f_levels phi)
  | q :: _ => exists q', q = QI q' /\ exists p1, psis = [p1] /\ mapM (make_psi o F N l2T 0) (fo_bank F J q') = Ok p1 /\
      levels_upto o (fo_gauss F N (fo_sigma_low F T)) (Z.max (upd_max_j 0 p1) (1 + l2T)) = Ok (f_levels phi)
  end.
Proof.
  intros H Hq. unfold filter_factory in H. inv_bind H. destruct v as [ps pj]. inv_bind H. injection H as <- <-.
  cbn [f_j f_xi f_N f_sigma f_levels]. repeat (split; [reflexivity|]).
  destruct qs as [|q [|]]; [| |cbn in Hq; lia]; cbn [make_layers] in E.
  - injection E as <- <-. split; [reflexivity|assumption].
  - destruct q as [q|]; [|discriminate]. exists q. split; [reflexivity|]. inv_bind E. cbn [bind] in E. injection E as <- <-.
    exists v0. repeat split; assumption.
Qed.

(** The stages of the constructor. *)
Lemma new_jtfs_inv {K P} (o : ops K) (F1 Ffr : formulas K P) support p out t : new_jtfs o F1 Ffr support p out = Ok t ->
  exists pb Q_fr q0 q1 F, let J := p_J (jp_base p) in let N_fr := N_padded_fr_of ((J + 1) * q0) (jp_J_fr p) F in
    pb = {| p_J := J; p_shape := p_shape (jp_base p); p_Q := p_Q (jp_base p); p_T := p_T (jp_base p);
            p_stride := p_stride (jp_base p); p_max_order := 2; p_oversampling := ONone |} /\
    new_scattering1d o F1 support pb out = Ok (t_base t) /\
    Q_fr_of (jp_Q_fr p) = Ok Q_fr /\ Q_of (p_Q pb) = Ok [QI q0; q1] /\
    T_of (jp_F p) (jp_J_fr p) ((J + 1) * q0) = Ok F /\ 0 < N_fr /\
    t_log2_stride_fr t = log2_stride_of (jp_stride_fr p) (jp_F p) (jp_J_fr p) ((J + 1) * q0) /\
    t_average_fr t = average_of (jp_F p) (jp_J_fr p) ((J + 1) * q0) /\ t_format t = jp_format p /\
    filter_factory o Ffr (Z.to_nat N_fr) (jp_J_fr p) [] F (log2_floor F (jp_J_fr p)) = Ok (t_phi_fr t, []) /\
    exists phi1 psis, filter_factory o Ffr (Z.to_nat N_fr) (jp_J_fr p) [Q_fr] (Qpower 2 (jp_J_fr p)) (log2_floor (Qpower 2 (jp_J_fr p)) (jp_J_fr p)) = Ok (phi1, [psis]) /\
      t_psis_fr t = phi1 :: psis.
Proof.
  unfold new_jtfs. intros H. inv_bind H. inv_bind H. inv_bind H. inv_bind H. inv_bind H. inv_bind H. destruct v4 as [phi psis].
  injection H; intros <-.
  assert (Hq : exists q1, v1 = [QI v2; q1]).
  { unfold Q_of in E1. destruct (existsb _ _); [discriminate|].
    destruct (p_Q _) as [z|?|l|?]; try discriminate.
    - injection E1; intros <-. cbn in E2. injection E2; intros <-. eauto.
    - destruct l as [|a [|b [|]]]; try discriminate; injection E1; intros <-;
        (destruct a as [a|]; [|discriminate E2]); assert (a = v2) as -> by congruence; eauto. }
  destruct Hq as (q1 & ->). clear H. cbn [p_J] in *. unfold create_filters_fr in E4. destruct (Z.leb_spec (N_padded_fr_of ((p_J (jp_base p) + 1) * v2) (jp_J_fr p) v3) 0) as [|HN]; [discriminate|].
  inv_bind E4. destruct v1 as [phi0 ps0]. inv_bind E4. destruct v1 as [phi1 ps1].
  assert (ps0 = []) as ->. { apply factory_inv1 in E5; [|cbn; lia]. tauto. }
  destruct ps1 as [|ps1 [|]]; try discriminate. destruct (forallb _ _); [|discriminate]. injection E4 as <- <-.
  eexists. exists v0, v2, q1, v3. cbn zeta. cbn [t_base t_log2_stride_fr t_average_fr t_format t_phi_fr t_psis_fr p_J p_Q].
  split; [reflexivity|]. repeat (split; [try eassumption; try reflexivity|]). exists phi1, ps1. split; [assumption|reflexivity].
Qed.


Lemma Q_fr_ge1 v q : Q_fr_of v = Ok (QI q) -> 1 <= q.
Proof.
  unfold Q_fr_of. destruct (existsb _ _) eqn:Ex; [discriminate|]. intros H.
  assert (G : existsb (fun q => Qltb q 1) [inject_Z q] = false -> 1 <= q).
  { cbn [existsb]. rewrite orb_false_r. unfold Qltb. intros E. apply negb_false_iff, Qle_bool_iff in E. unfold Qle, inject_Z in E. cbn in E. lia. }
  apply G. destruct v as [z|?|[|a [|]]|?]; try discriminate; injection H as H; subst; exact Ex.
Qed.
Lemma scale_opp xi s : scale (- xi) s = scale xi s.
Proof. unfold scale, get_max_dyadic_subsampling. now rewrite Rabs_Ropp. Qed.

(** The frequential filters of an object: a low-pass, then the wavelets of positive frequency, then their
    mirror images. *)
Theorem new_jtfs_bank support p out t : 0 <= jp_J_fr p -> TimeFrequencyScattering support p out = Ok t ->
  exists low pos neg, t_psis_fr t = low :: pos ++ neg /\ f_xi low = 0%R /\ f_j low = jp_J_fr p /\
    Forall (fun f => (0 < f_xi f < 1 / 2)%R) pos /\
    map (fun f => (f_xi f, f_sigma f, f_j f)) neg = map (fun f => (- f_xi f, f_sigma f, f_j f)%R) pos /\
    Forall (fun f => 0 <= f_j f <= Z.max (jp_J_fr p - 1) 0) pos.
Proof.
  intros HJ H. apply new_jtfs_inv in H. destruct H as (pb & Q_fr & q0 & q1 & F & _ & _ & HQ & _ & _ & _ & _ & _ & _ & _ & phi1 & psis & E & ->).
  apply factory_inv1 in E; [|cbn; lia]. destruct E as (Ej & Exi & _ & _ & q' & -> & p1 & E1 & E2 & _).
  injection E1 as <-. apply Q_fr_ge1 in HQ as Hq. rewrite log2_floor_pow2 in * by exact HJ.
  pose proof (anden_list_ok (jp_J_fr p) q' HJ Hq) as Ha.
  apply layer_bank in E2. destruct E2 as [B1 B2]. cbn [fo_bank formulas_fr] in B1. unfold spin in B1.
  set (l := anden_list (jp_J_fr p) q' sigma0 r_psi) in *.
  apply map_eq_app in B1. destruct B1 as (pos & neg & -> & Bp & Bn). apply Forall_app in B2 as [B2 B3].
  exists phi1, pos, neg. split; [reflexivity|]. split; [exact Exi|]. split; [exact Ej|].
  rewrite Forall_forall in B2, B3.
  assert (Hp : forall f, In f pos -> (0 < f_xi f < 1 / 2)%R /\ 0 <= f_j f <= Z.max (jp_J_fr p - 1) 0).
  { intros f Hf. pose proof (in_map (fun f => (f_xi f, f_sigma f)) _ _ Hf) as I. rewrite Bp in I.
    destruct (anden_elem _ _ _ _ HJ Hq Ha I) as [Hx Hs]. cbn [fst snd] in Hx, Hs. split; [exact Hx|].
    rewrite (B2 f Hf). change (fo_j formulas_fr) with scale. rewrite Hs. split.
    - apply scale_ge0; [lra|now apply bandwidth_pos].
    - apply scale_le; [assumption..|lra]. }
  repeat split.
  - apply Forall_forall. intros f Hf. now apply Hp.
  - clear Hp Ha. revert neg Bn B3. subst l. rewrite <- Bp. clear Bp. rewrite map_map. cbn [fst snd].
    induction pos as [|f pos IH]; intros [|g neg] Bn B3; try discriminate; [reflexivity|]. cbn [map] in Bn |- *.
    injection Bn as Bx Bs Bn. rewrite IH; [|intros; apply B2; now right|exact Bn|intros; apply B3; now right].
    f_equal. rewrite (B3 g (or_introl eq_refl)), (B2 f (or_introl eq_refl)), Bx, Bs. change (fo_j formulas_fr) with scale.
    now rewrite scale_opp.
  - apply Forall_forall. intros f Hf. now apply Hp.
Qed.
Theorem new_jtfs_spun support p out t : 0 <= jp_J_fr p -> TimeFrequencyScattering support p out = Ok t ->
  spun sgnR (t_psis_fr t) /\ Forall (fun f => 0 <= f_j f <= jp_J_fr p) (t_psis_fr t).
Proof.
  intros HJ H. destruct (new_jtfs_bank support p out t HJ H) as (low & pos & neg & -> & Hx & Hj & Hp & Hn & Hs).
  rewrite Forall_forall in Hp, Hs.
  assert (Hneg : forall g, In g neg -> exists f, In f pos /\ (f_xi g = - f_xi f)%R /\ f_j g = f_j f).
  { intros g Hg. pose proof (in_map (fun f => (f_xi f, f_sigma f, f_j f)) _ _ Hg) as I. rewrite Hn in I.
    apply in_map_iff in I as (f & E & Hf). injection E as E1 _ E2. exists f. auto. }
  split.
  - exists low, pos, neg. split; [reflexivity|]. split; [rewrite Hx; apply sgnR_0|]. split; apply Forall_forall; intros f Hf.
    + apply sgnR_pos. apply Hp, Hf.
    + destruct (Hneg f Hf) as (g & Hg & E & _). rewrite E. apply sgnR_neg. specialize (Hp g Hg). lra.
  - constructor; [lia|]. apply Forall_app. split; apply Forall_forall; intros f Hf.
    + specialize (Hs f Hf). lia.
    + destruct (Hneg f Hf) as (g & Hg & _ & ->). specialize (Hs g Hg). lia.
Qed.
