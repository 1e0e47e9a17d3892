(** The filters stored by a constructed Scattering1D object, and what any successful run of the transform on
    them implies. *)
From Coq Require Import String Reals ZArith QArith Qreals List Bool Lia Lra Permutation.
From Coquelicot Require Import Complex.
From Verif Require Import Base BaseProofs NdArray Backend Core1d Utils1d Utils1dProofs Frontend1d Spec1d Core1dProofs
  Frontend1dProofs NdProofs Rows1d FrontRows Factory1d FactoryProofs ComplexOps FilterBank1d FilterBank1dProofs Construct1d
  Shape1d PropFilters1d PropShapes1d Dft Conv1d Value1d.
Import ListNotations.
Local Open Scope Z_scope.
Local Open Scope res_scope.

Definition padded_length {W P} (s : scat1d W P) (N : Z) : nat := Z.to_nat (s_pad_left s + N + s_pad_right s).

Lemma levels_are_periodised full n stop lev k w : nd_shape full = [n] -> nd_dtype full = Real ->
  List.length (nd_data full) = n -> levels_upto complex_ops full stop = Ok lev -> nth_error lev k = Some w ->
  Nat.divide (2 ^ k) n /\ nd_shape w = [(n / 2 ^ k)%nat] /\ List.length (nd_data w) = (n / 2 ^ k)%nat /\
  (forall i, (i < n / 2 ^ k)%nat -> at_ (nd_data w) i = csum (2 ^ k) (fun r => at_ (nd_data full) (r * (n / 2 ^ k) + i))).
Proof.
  intros Hs Hd Hl H Hw. unfold levels_upto in H. inv_bind H. injection H as <-.
  destruct k as [|k].
  - cbn in Hw. injection Hw as <-. change (2 ^ 0)%nat with 1%nat. rewrite Nat.div_1_r. split; [exists n; lia|].
    split; [exact Hs|]. split; [exact Hl|]. intros i Hi. cbn [csum Nat.mul Nat.add].
    apply C_ext; cbn; ring.
  - cbn [nth_error] in Hw. pose proof (mapM_length _ _ _ E) as Hlen. apply mapM_ok in E.
    assert (Hk : (k < List.length v)%nat) by (apply nth_error_Some; congruence).
    unfold zrange in Hlen. rewrite map_length, seq_length in Hlen.
    destruct (Forall2_nth_error_l _ _ _ k (1 + Z.of_nat k) E) as (w' & Hw' & Ew).
    { apply zrange_nth. lia. }
    rewrite Hw in Hw'. injection Hw' as <-.
    destruct (reduce_level_ok complex_ops full n (1 + Z.of_nat k) w Hs ltac:(lia) Ew) as (R1 & R2 & R3 & R4 & R5).
    assert (Ep : p2 (1 + Z.of_nat k) = (2 ^ S k)%nat) by (unfold p2; f_equal; lia). rewrite Ep in *.
    split; [exact R4|]. split; [exact R1|]. split; [exact R3|]. intros i Hi. rewrite R5. now apply at_periodize_sum.
Qed.

Definition stored {W P} (s : scat1d W P) (f : Core1d.filter W P) : Prop := f = s_phi s \/ In f (s_psi1 s) \/ In f (s_psi2 s).

(** What [new_filters] says about one stored filter: level 0 is [full], level [k] its periodisation. *)
Record tabulated (Np : nat) (full : nd C) (f : Core1d.filter (nd C) R) : Prop := {
  tb_0 : nth_error (f_levels f) 0 = Some full;
  tb_shape : nd_shape full = [Np];
  tb_len : List.length (nd_data full) = Np;
  tb_k : forall k w, nth_error (f_levels f) k = Some w ->
    Nat.divide (2 ^ k) Np /\ nd_shape w = [(Np / 2 ^ k)%nat] /\ List.length (nd_data w) = (Np / 2 ^ k)%nat /\
    forall i, (i < Np / 2 ^ k)%nat -> at_ (nd_data w) i = csum (2 ^ k) (fun r => at_ (nd_data full) (r * (Np / 2 ^ k) + i))
}.

Lemma levels_tabulated Np full stop f : nd_shape full = [Np] -> nd_dtype full = Real -> List.length (nd_data full) = Np ->
  levels_upto complex_ops full stop = Ok (f_levels f) -> tabulated Np full f.
Proof.
  intros H1 H2 H3 H4. constructor; try assumption.
  - unfold levels_upto in H4. inv_bind H4. injection H4 as <-. reflexivity.
  - intros k w Hw. eapply levels_are_periodised; eassumption.
Qed.

Theorem new_filters support p out s N : (forall n t, 0 <= support n t) -> Scattering1D support p out = Ok s ->
  N_input_of (p_shape p) = Ok N -> 1 <= N -> 0 <= p_J p ->
  let Np := padded_length s N in
  (0 < Np)%nat /\
  (0 < f_sigma (s_phi s))%R /\ tabulated Np (gauss_1d Np (f_sigma (s_phi s))) (s_phi s) /\
  (forall f, In f (s_psi1 s) \/ In f (s_psi2 s) ->
     (0 < f_xi f < 1 / 2)%R /\ (0 < f_sigma f)%R /\ tabulated Np (morlet_1d Np (Some (f_xi f)) (f_sigma f)) f).
Proof.
  intros Hsup H EN HN HJ. destruct (new_Q _ _ _ _ H) as (q1 & q2 & EQ & Hq1 & Hq2).
  apply new_inv in H. destruct H as (b & Qs & T & l2T & phi & psi1s & psi2s & Hb & EQ' & ET & El & EF & _ & Es).
  rewrite EQ in EQ'. injection EQ' as <-.
  assert (EbN : b_N b = N).
  { destruct (build_inv _ _ _ Hb) as (st & T' & l & r & EN' & _). congruence. }
  destruct (build_plan support p b Hsup Hb) as (_ & B1 & B2 & B3 & B4 & _); [lia|]. rewrite EbN in *.
  unfold padded_length. rewrite Es. cbn [s_pad_left s_pad_right s_phi s_psi1 s_psi2]. rewrite B4.
  set (Np := Z.to_nat (b_Npad b)) in *. cbv zeta.
  split; [lia|].
  pose proof (factory_inv _ _ _ _ _ _ _ _ _ _ _ EF) as (E1 & E2 & E3 & _).
  assert (HT : (1 <= T)%Q).
  { unfold T_of in ET. inv_bind ET. destruct v as [T' a']. cbn in ET. injection ET as <-. exact (parse_T_ge1 _ _ _ _ _ HJ E). }
  assert (Esig : f_sigma phi = (sigma0 / Q2R T)%R).
  { unfold filter_factory in EF. inv_bind EF. destruct v as [psis pj]. inv_bind EF. injection EF as <- _. reflexivity. }
  split; [|split].
  - rewrite Esig. apply Rdiv_lt_0_compat; [unfold sigma0; lra|].
    assert (1 <= Q2R T)%R; [|lra]. replace 1%R with (Q2R 1) by (unfold Q2R; cbn; lra). now apply Qle_Rle.
  - cbn [fo_gauss fo_sigma_low formulas1d] in E3. rewrite <- Esig in E3.
    eapply levels_tabulated; [reflexivity|reflexivity| |exact E3]. cbn. now rewrite map_length, seq_length.
  - assert (G : forall q l2T' pj psis f, (1 <= q) -> mapM (make_psi complex_ops formulas1d Np l2T' pj) (fo_bank formulas1d (p_J p) q) = Ok psis ->
        In f psis -> (0 < f_xi f < 1 / 2)%R /\ (0 < f_sigma f)%R /\ tabulated Np (morlet_1d Np (Some (f_xi f)) (f_sigma f)) f).
    { intros q l2T' pj psis f Hq Hm Hf. destruct (layer_In _ _ _ _ _ _ _ _ Hm Hf) as (xi & s0 & Hin & Ex & Es0 & _ & Hlev).
      cbn [fo_bank formulas1d] in Hin.
      pose proof (anden_elem _ _ _ _ HJ Hq (anden_list_ok _ _ HJ Hq) Hin) as [X1 X2]. cbn [fst snd] in X1, X2.
      rewrite Ex, Es0. split; [exact X1|]. split; [rewrite X2; now apply bandwidth_pos|].
      eapply levels_tabulated; [reflexivity|reflexivity| |exact Hlev]. cbn. now rewrite map_length, seq_length. }
    intros f [Hf|Hf]; [eapply (G q1)|eapply (G q2)]; eassumption.
Qed.

Lemma tabulated_lev0 Np full f : tabulated Np full f -> lev f 0 = nd_data full.
Proof. intros H. unfold lev. change (Z.to_nat 0) with 0%nat. now rewrite (tb_0 _ _ _ H). Qed.

Lemma new_order support p out s : Scattering1D support p out = Ok s -> s_max_order s = p_max_order p.
Proof.
  intros H. apply new_inv in H. destruct H as (b & Qs & T & l & phi & psi1s & psi2s & H).
  destruct H as (_ & _ & _ & _ & _ & _ & ->). reflexivity.
Qed.

Lemma new_stride_nonneg support p out s N ls : Scattering1D support p out = Ok s -> N_input_of (p_shape p) = Ok N ->
  0 <= p_J p -> s_log2_stride s = Ok ls -> 0 <= ls.
Proof.
  intros H EN HJ Els. apply new_inv in H. destruct H as (b0 & Qs & T & l2T & phi & psi1s & psi2s & Hb0 & EQ' & ET & El & EFa & _ & Es).
  rewrite Es in Els. cbn [s_log2_stride] in Els. revert Els. destruct (b_stride b0) as [|z|q|]; cbn [log2_stride_of]; try discriminate.
  - rewrite El. intros G; injection G as <-. unfold log2_T_of in El. rewrite ET in El. cbn [bind] in El.
    injection El as <-. unfold T_of in ET. inv_bind ET. destruct v as [T' a']. cbn in ET. injection ET as <-.
    apply (log2_floor_spec T' (p_J p)). apply (parse_T_ge1 _ _ _ _ _ HJ E).
  - destruct (z <=? 0); [discriminate|]. destruct (negb _); [discriminate|].
    intros G. inv_bind G. destruct v; try discriminate. injection G as <-. apply Z.log2_nonneg.
Qed.

(** The transform run on a padded batch (any leading axes) with the filters of a constructed object. *)
Theorem core_adm support p out s N ls pre (U : nd C) gen :
  (forall n t, 0 <= support n t) -> Scattering1D support p out = Ok s ->
  N_input_of (p_shape p) = Ok N -> 1 <= N -> 0 <= p_J p -> 1 <= p_max_order p <= 2 ->
  s_log2_stride s = Ok ls -> nd_shape U = pre ++ [padded_length s N] -> (0 < prod pre)%nat ->
  scattering1d np U (s_phi s) (psis_of s) ls true = Ok gen ->
  nd_dtype U = Real /\ adm (s_phi s) (s_psi1 s) (s_psi2 s) (s_max_order s =? 2) (padded_length s N) ls true.
Proof.
  intros Hsup H EN HN HJ Hmo Els HU Hpre Hrun.
  pose proof (new_stride_nonneg _ _ _ _ _ _ H EN HJ Els) as Hls.
  destruct (new_Q _ _ _ _ H) as (q1 & q2 & EQ & Hq1 & Hq2).
  pose proof (new_order _ _ _ _ H) as Emo.
  pose proof Hrun as Eg'. unfold scattering1d in Eg'. inv_bind Eg'. rename v into U0h. cbn [numpy_backend be_rfft] in E.
  destruct (np_rfft_inv _ _ E) as (D3 & S3 & D4). split; [congruence|].
  inv_bind Eg'. clear Eg'. unfold order0 in E0. inv_bind E0. inv_bind E0. inv_bind E0. cbn [numpy_backend be_cdgmm be_subsample] in E2, E3.
  destruct (np_cdgmm_inv _ _ _ E2) as (S5 & _).
  assert (Hd : Nat.divide (p2 ls) (padded_length s N)).
  { eapply (np_subsample_inv v1 v2 pre); [congruence|exact Hpre|exact Hls|exact E3]. }
  apply new_inv in H. destruct H as (b & Qs & T & l2T & phi & psi1s & psi2s & Hb & EQ' & ET & El & EF & _ & Es).
  rewrite EQ in EQ'. injection EQ' as <-.
  assert (EbN : b_N b = N).
  { destruct (build_inv _ _ _ Hb) as (st & T' & l & r & EN' & _). congruence. }
  destruct (build_plan support p b Hsup Hb) as (_ & B1 & B2 & B3 & B4 & _); [lia|]. rewrite EbN in *.
  assert (Hl2T : 0 <= l2T).
  { unfold log2_T_of in El. rewrite ET in El. cbn [bind] in El. injection El as <-.
    unfold T_of in ET. inv_bind ET. destruct v3 as [T' a']. cbn in ET. injection ET as <-.
    apply (log2_floor_spec T' (p_J p)). apply (parse_T_ge1 _ _ _ _ _ HJ E4). }
  assert (ENp : padded_length s N = Z.to_nat (b_Npad b)).
  { unfold padded_length. rewrite Es. cbn [s_pad_left s_pad_right]. now rewrite B4. }
  rewrite ENp in *.
  assert (Epsis : psis_of s = if s_max_order s =? 2 then [s_psi1 s; s_psi2 s] else [s_psi1 s]).
  { destruct (psis_of_cases s ltac:(lia)) as [[X1 X2]|[X1 X2]]; rewrite X2, X1; reflexivity. }
  rewrite Epsis in Hrun.
  refine (factory_adm_run complex_ops formulas1d formulas1d_sane np (Z.to_nat (b_Npad b)) (p_J p) q1 q2 T l2T _ _ _ U _ ls true gen ltac:(lia) HJ Hq1 Hq2 Hl2T Hls _ Hd Hrun).
  rewrite Es. exact EF.
Qed.
