(** Lemmas on constructed Scattering1D objects: what a successful call implies, and wrong lengths. *)
From Coq Require Import String Reals ZArith QArith List Bool Lia Permutation.
From Coquelicot Require Import Complex.
From Verif Require Import Base BaseProofs NdArray Backend Core1d Utils1d Utils1dProofs Frontend1d Spec1d Core1dProofs
  Frontend1dProofs NdProofs Rows1d FrontRows Factory1d FactoryProofs ComplexOps FilterBank1d FilterBank1dProofs Construct1d.
Import ListNotations.
Local Open Scope Z_scope.
Local Open Scope res_scope.

(** Calls that return a list or an array. *)
Lemma list_run_gen t (s : scat1d (nd C) R) a batch n x S : s_average s = Ok a -> (t = "list"%string \/ t = "array"%string /\ a <> NoAvg) ->
  nd_shape x = batch ++ [n] -> paths np s x = Ok S ->
  scattering np (with_out s t) x = format_out np t S.
Proof.
  intros Ea Ht Hsh HS. rewrite scattering_paths. replace (check_runtime_args (with_out s t)) with (Ok tt).
  2:{ symmetry. apply check_runtime_args_ok. cbn [with_out s_out_type s_average]. split.
      - destruct Ht as [->|[-> _]]; cbn; tauto.
      - exists a. split; [exact Ea|]. intros [K1 K2]. destruct Ht as [->|[-> K]]; [discriminate|congruence]. }
  cbn [bind]. unfold check_input. change (be_shape np x) with (nd_shape x). rewrite Hsh, app_length.
  cbn [List.length]. replace (Nat.ltb (List.length batch + 1) 1) with false by (symmetry; apply Nat.ltb_ge; lia).
  cbn [raise_if bind]. rewrite paths_with_out, HS. reflexivity.
Qed.
Lemma list_run (s : scat1d (nd C) R) a batch n x S : s_average s = Ok a ->
  nd_shape x = batch ++ [n] -> paths np s x = Ok S ->
  scattering np (with_out s "list") x = Ok (OutList (sort_paths S)).
Proof. intros. erewrite list_run_gen by eauto. reflexivity. Qed.

(** Only integer quality factors get through the filter factory. *)
Lemma new_Q support p out s : Scattering1D support p out = Ok s ->
  exists q1 q2, Q_of (p_Q p) = Ok [QI q1; QI q2] /\ 1 <= q1 /\ 1 <= q2.
Proof.
  intros H. apply new_inv in H. destruct H as (b & Qs & T & l2T & phi & psi1s & psi2s & _ & EQ & _ & _ & EF & _).
  assert (G : exists q1 q2, Qs = [QI q1; QI q2]).
  { unfold filter_factory in EF. inv_bind EF. destruct v as [psis pj].
    destruct Qs as [|[q1|f1] Qs]; cbn [make_layers] in E.
    - injection E; intros <- <-. inv_bind EF. discriminate.
    - inv_bind E. destruct Qs as [|[q2|f2] Qs]; cbn [make_layers] in E.
      + injection E; intros <- <-. inv_bind EF. discriminate.
      + exists q1, q2. f_equal. f_equal.
        assert (L : List.length Qs = 0%nat); [|destruct Qs; [reflexivity|discriminate]].
        unfold Q_of in EQ. destruct (existsb _ _); [discriminate|].
        destruct (p_Q p) as [z|q|[|a [|b' [|c l]]]|l]; try discriminate; injection EQ; intros; subst; reflexivity.
      + discriminate.
    - discriminate. }
  destruct G as (q1 & q2 & ->). exists q1, q2. split; [exact EQ|].
  unfold Q_of in EQ. destruct (existsb (fun q => Qltb q 1) (qval_entries (p_Q p))) eqn:Ex; [discriminate|].
  assert (G : forall q, In q (qval_entries (p_Q p)) -> (1 <= q)%Q).
  { intros q Hq. apply Qltb_false. destruct (Qltb q 1) eqn:Eq; [|reflexivity].
    exfalso. assert (existsb (fun q => Qltb q 1) (qval_entries (p_Q p)) = true); [|congruence].
    apply existsb_exists. eauto. }
  assert (GI : forall z, In (inject_Z z) (qval_entries (p_Q p)) -> 1 <= z).
  { intros z Hz. specialize (G _ Hz). unfold Qle in G. cbn in G. lia. }
  destruct (p_Q p) as [z|q|[|a [|b' [|c l]]]|l]; try discriminate; injection EQ; intros; subst; cbn [qval_entries map qnum_val] in *.
  - split; [apply GI; now left|lia].
  - split; [apply GI; now left|lia].
  - split; apply GI; cbn; tauto.
Qed.

(** A strictly positive oversampling is incompatible with global or no averaging. *)
Lemma new_over support p out s N k : Scattering1D support p out = Ok s -> N_input_of (p_shape p) = Ok N ->
  forall ls a, s_log2_stride s = Ok ls -> s_average s = Ok a -> a <> Local -> p_oversampling p = OInt k -> k = 0.
Proof.
  intros H EN ls a Els Ea Ha Ek. apply new_inv in H. destruct H as (b & Qs & T & l2T & phi & psi1s & psi2s & Hb & _ & _ & _ & _ & _ & Es).
  destruct (build_inv _ _ _ Hb) as (st & T' & l & r & EN' & EO & _ & _ & Eb).
  rewrite Es in Els, Ea. cbn [s_log2_stride s_average] in *.
  rewrite Ek in EO. cbn [oversampling_check] in EO. destruct (Z.ltb_spec k 0); [discriminate|].
  destruct (Z.eqb_spec k 0); [assumption|]. exfalso. inv_bind EO.
  destruct (negb _); [discriminate|]. injection EO; intros Est.
  assert (Eb' : b_stride b = st) by (rewrite Eb; reflexivity). rewrite Eb', <- Est in Els.
  destruct (v - k <? 0); [discriminate|]. cbn [log2_stride_of] in Els. destruct (_ <=? 0); [discriminate|].
  destruct (negb _); [discriminate|]. rewrite Ea in Els. cbn [bind] in Els. destruct a; congruence.
Qed.

Lemma np_reshape_input_inv {K} (x y : nd K) n : nd_wf x -> np_reshape_input x [n] = Ok y ->
  nd_dtype y = nd_dtype x /\ exists m, nd_shape y = [m; 1; n]%nat /\ (m * n = prod (nd_shape x))%nat.
Proof.
  intros Hw H. unfold np_reshape_input, reshape_infer in H.
  assert (E : prod [1; n]%nat = n) by (cbn; lia). rewrite E in H.
  destruct (Nat.eqb n 0) eqn:E0; [discriminate|]. destruct (Nat.eqb (_ mod _) 0) eqn:E1; [|discriminate].
  injection H; intros <-. cbn [nd_shape nd_dtype]. split; [reflexivity|]. eexists. split; [reflexivity|].
  apply Nat.eqb_eq in E1. apply Nat.eqb_neq in E0.
  pose proof (Nat.div_mod (prod (nd_shape x)) n E0). lia.
Qed.

Section Complex.
Notation o := complex_ops.

Lemma np_fft_shape (d : dtype) f (x y : nd C) : np_fft_rows d f x = Ok y -> nd_shape y = nd_shape x /\ nd_dtype y = d.
Proof.
  unfold np_fft_rows. intros H. inv_bind H. destruct v as [pre n]. destruct (Nat.eqb n 0); [discriminate|].
  injection H; intros <-. cbn. apply split_last_inv in E. rewrite E. auto.
Qed.
Lemma np_rfft_inv (x y : nd C) : np_rfft o x = Ok y -> nd_dtype x = Real /\ nd_shape y = nd_shape x /\ nd_dtype y = Complex.
Proof.
  unfold np_rfft, real_check, is_real. intros H. destruct (nd_dtype x); cbn [negb raise_if bind] in H; try discriminate.
  apply np_fft_shape in H. tauto.
Qed.
Lemma np_cdgmm_inv (a b y : nd C) : np_cdgmm o a b = Ok y ->
  nd_shape y = nd_shape a /\ trailing (List.length (nd_shape b)) (nd_shape a) = nd_shape b /\ nd_dtype y = Complex.
Proof.
  unfold np_cdgmm. destruct (negb (is_complex a)); [discriminate|].
  destruct (list_eq_dec _ _ _) as [E|]; [|discriminate]. destruct (_ && _)%bool; [discriminate|].
  intros H; injection H; intros <-. cbn. auto.
Qed.
Lemma np_subsample_inv (x y : nd C) pre n k : nd_shape x = pre ++ [n] -> (0 < prod pre)%nat -> 0 <= k ->
  np_subsample o x (pow2 k) = Ok y -> Nat.divide (p2 k) n.
Proof.
  intros Hs Hp Hk H. unfold np_subsample in H. inv_bind H. unfold pow2 in H. destruct (Z.ltb_spec k 0); [lia|].
  rewrite Hs, split_last_snoc in H. cbn [bind] in H. destruct (2 ^ k =? 0); [discriminate|].
  destruct (2 ^ k <? 0); [discriminate|]. destruct (Nat.eqb _ _) eqn:E1; [|discriminate].
  apply Nat.eqb_eq in E1. rewrite !prod_app in E1. cbn [prod fold_right] in E1. rewrite p2_of_Z in E1 by assumption.
  exists (n / p2 k)%nat. unfold prod in *. nia.
Qed.
Lemma np_pad_inv (x y : nd C) pre n l r : nd_shape x = pre ++ [n] -> np_pad o x l r = Ok y ->
  nd_dtype y = nd_dtype x /\ nd_shape y = pre ++ [Z.to_nat l + n + Z.to_nat r]%nat /\ 0 <= l /\ 0 <= r.
Proof.
  intros Hs H. unfold np_pad in H. rewrite Hs, split_last_snoc in H. cbn [bind] in H.
  destruct (_ || _)%bool; [discriminate|]. destruct (Z.ltb_spec l 0); [discriminate|].
  destruct (Z.ltb_spec r 0); [discriminate|]. cbn [orb] in H. injection H; intros <-. cbn. auto.
Qed.
End Complex.

(** Constructed objects have level 0 of every filter with the padded length. *)
Lemma new_levels0 support p out s N : (forall n t, 0 <= support n t) -> Scattering1D support p out = Ok s ->
  N_input_of (p_shape p) = Ok N -> 1 <= N -> 0 <= p_J p ->
  s_psi1 s <> [] /\ 0 <= s_pad_left s /\ 0 <= s_pad_right s /\
  let Np := (Z.to_nat (s_pad_left s) + Z.to_nat N + Z.to_nat (s_pad_right s))%nat in
  (forall w, py_index (f_levels (s_phi s)) 0 = Ok w -> nd_shape w = [Np]) /\
  (forall f w, In f (s_psi1 s) -> py_index (f_levels f) 0 = Ok w -> nd_shape w = [Np]).
Proof.
  intros Hsup H EN HN HJ. destruct (new_Q _ _ _ _ H) as (q1 & q2 & EQ & Hq1 & Hq2).
  assert (Hlen : s_psi1 s <> []).
  { destruct (new_banks _ _ _ _ H _ _ EQ) as (P1 & _). intros E. rewrite E in P1. cbn in P1.
    pose proof (anden_length (p_J p) q1 _ HJ Hq1 (anden_list_ok _ _ HJ Hq1)). rewrite <- P1 in H0. cbn in H0. lia. }
  split; [exact Hlen|].
  apply new_inv in H. destruct H as (b & Qs & T & l2T & phi & psi1s & psi2s & Hb & EQ' & _ & El & EF & _ & Es).
  rewrite EQ in EQ'. injection EQ'; intros <-.
  assert (EbN : b_N b = N).
  { destruct (build_inv _ _ _ Hb) as (st & T' & l & r & EN' & _). congruence. }
  destruct (build_plan support p b Hsup Hb) as (_ & B1 & B2 & B3 & B4 & _); [lia|]. rewrite EbN in *.
  rewrite Es. cbn [s_pad_left s_pad_right s_phi s_psi1]. split; [lia|]. split; [lia|]. cbv zeta.
  replace (Z.to_nat (b_left b) + Z.to_nat N + Z.to_nat (b_right b))%nat with (Z.to_nat (b_Npad b)) by lia.
  set (Np := Z.to_nat (b_Npad b)) in *.
  pose proof (factory_inv _ _ _ _ _ _ _ _ _ _ _ EF) as (E1 & E2 & E3).
  assert (G : forall full stop lev w, nd_shape full = [Np] -> levels_upto complex_ops full stop = Ok lev ->
    py_index lev 0 = Ok w -> nd_shape w = [Np]).
  { intros full stop lev w Hf Hlev Hw. unfold levels_upto in Hlev. inv_bind Hlev. injection Hlev; intros <-.
    cbn in Hw. injection Hw; intros <-. exact Hf. }
  split.
  - intros w Hw. unfold filter_factory in EF. inv_bind EF. destruct v as [psis pj]. inv_bind EF.
    injection EF; intros _ <-. cbn [f_levels] in Hw. eapply G; [|exact E0|exact Hw].
    apply (sane_gauss _ formulas1d_sane).
  - intros f w Hf Hw. destruct (layer_In _ _ _ _ _ _ _ _ E1 Hf) as (xi & s0 & _ & _ & _ & _ & Hlev).
    eapply G; [|exact Hlev|exact Hw]. apply (sane_morlet _ formulas1d_sane).
Qed.

(** Facts about a successful call, whatever the parameters. *)
Theorem run_ready support p out s N batch x S :
  (forall n t, 0 <= support n t) -> Scattering1D support p out = Ok s ->
  N_input_of (p_shape p) = Ok N -> 1 <= N -> 0 <= p_J p -> 1 <= p_max_order p <= 2 ->
  nd_wf x -> nd_shape x = batch ++ [Z.to_nat N] -> (0 < prod batch)%nat ->
  paths np s x = Ok S ->
  nd_dtype x = Real /\ exists l r m ls a, ready s (Z.to_nat N) l r m ls a /\
    s_pad_left s = Z.of_nat l /\ s_pad_right s = Z.of_nat r.
Proof.
  intros Hsup H EN HN HJ Hmo Hw Hsh Hb HS.
  destruct (new_Q _ _ _ _ H) as (q1 & q2 & EQ & Hq1 & Hq2).
  destruct (new_levels0 _ _ _ _ _ Hsup H EN HN HJ) as (Hne & Hl & Hr & _).
  apply paths_inv in HS. destruct HS as (b & n & x' & U0 & ls & a & gen & E1 & E2 & E3 & Els & Ea & Eg & EF).
  cbn [numpy_backend be_shape be_reshape_input be_pad] in E1, E2, E3.
  rewrite Hsh, split_last_snoc in E1. injection E1; intros <- <-. clear E1.
  destruct (np_reshape_input_inv _ _ _ Hw E2) as (D1 & m & Sx' & Em).
  rewrite Hsh, prod_snoc in Em. assert (Hm : m = prod batch) by nia. subst m.
  destruct (np_pad_inv x' U0 [prod batch; 1]%nat (Z.to_nat N) _ _ Sx' E3) as (D2 & SU & _).
  pose proof Eg as Eg'. unfold scattering1d in Eg'. inv_bind Eg'. rename v into U0h. cbn [numpy_backend be_rfft] in E.
  destruct (np_rfft_inv _ _ E) as (D3 & S3 & D4). split; [congruence|].
  inv_bind Eg'. rename v into p0. inv_bind Eg'. rename v into psi1. inv_bind Eg'. injection Eg'; intros Egen.
  assert (Epsi : psi1 = s_psi1 s).
  { destruct (psis_of_cases s) as [[_ K]|[_ K]].
    - apply new_inv in H. destruct H as (? & ? & ? & ? & ? & ? & ? & _ & _ & _ & _ & _ & _ & ->). exact Hmo.
    - rewrite K in E1. cbn in E1. congruence.
    - rewrite K in E1. cbn in E1. congruence. }
  apply mapM_ok in EF. rewrite <- Egen in EF. inversion EF as [|p0' q0 rest rest' F0 Frest X1 X2]; subst p0' rest S.
  pose proof H as H'. apply new_inv in H'. destruct H' as (b0 & Qs & T & l2T & phi & psi1s & psi2s & Hb0 & EQ' & ET & El & EFa & _ & Es).
  assert (EbN : b_N b0 = N).
  { destruct (build_inv _ _ _ Hb0) as (st & T' & l & r & EN' & _). congruence. }
  rewrite EbN in *.
  assert (Hls : 0 <= ls).
  { rewrite Es in Els. cbn [s_log2_stride] in Els. revert Els. destruct (b_stride b0) as [|z|q|]; cbn [log2_stride_of]; try discriminate.
    - rewrite El. intros G; injection G; intros <-. unfold log2_T_of in El. rewrite ET in El. cbn [bind] in El.
      injection El; intros <-. unfold T_of in ET. inv_bind ET. destruct v0 as [T' a']. cbn in ET. injection ET; intros <-.
      apply (log2_floor_spec T' (p_J p)). apply (parse_T_ge1 _ _ _ _ _ HJ E5).
    - destruct (z <=? 0); [discriminate|]. destruct (negb _); [discriminate|].
      intros G. inv_bind G. destruct v0; try discriminate. injection G; intros <-. apply Z.log2_nonneg. }
  destruct (new_ready_run complex_ops formulas1d formulas1d_sane support p out s N q1 q2 ls a l2T np U0 gen)
    as (l & r & R); try assumption.
  - intros ->. split.
    + unfold finish_path in F0. rewrite Els in F0. cbn [bind] in F0. inv_bind F0. clear F0. inv_bind E5.
      clear E5. rewrite Es in E6. cbn [s_ind_start] in E6.
      destruct (build_inv _ _ _ Hb0) as (st & T' & l & r & _ & _ & ET' & _ & Eb). rewrite EbN, ET in ET'.
      injection ET'; intros <-. rewrite Eb in E6. cbn [b_start compute_border_indices fst] in E6.
      assert (El' : l2T = log2_floor T (p_J p)).
      { unfold log2_T_of in El. rewrite ET in El. cbn [bind] in El. congruence. }
      rewrite <- El' in E6. destruct (Z.le_gt_cases ls (Z.max l2T (p_J p))) as [G|G]; [exact G|].
      exfalso. rewrite dict_get_border_out in E6; [discriminate|]. right. lia.
    + unfold order0 in E0. inv_bind E0. inv_bind E0. inv_bind E0. cbn [numpy_backend be_cdgmm be_subsample] in E6, E7.
      destruct (np_cdgmm_inv _ _ _ E6) as (S5 & _).
      assert (Hd : Nat.divide (p2 ls) (Z.to_nat (s_pad_left s) + Z.to_nat N + Z.to_nat (s_pad_right s))).
      { eapply (np_subsample_inv v1 v2 [prod batch; 1]%nat); [congruence|cbn; lia|exact Hls|exact E7]. }
      destruct Hd as [q Hq]. pose proof (p2_Z ls Hls). assert (0 < q)%nat by nia. nia.
  - intros Ha. destruct (p_oversampling p) as [|k|neg] eqn:Eo.
    + exfalso. destruct (s_psi1 s) as [|f fs] eqn:Ef; [now apply Hne|]. subst psi1.
      cbn [enumerate combine seq List.length] in E4. unfold enumerate in E4. cbn [List.length seq combine] in E4.
      apply mapM_ok in E4. inversion E4 as [|? l1 ? ll G1 G2 X1 X2]; subst.
      assert (exists p1 l1', l1 = p1 :: l1' /\ p_n p1 <> []).
      { unfold order1 in G1. inv_bind G1. inv_bind G1. inv_bind G1. inv_bind G1. injection G1; intros <-.
        eexists _, _. split; [reflexivity|]. destruct a; try congruence; injection E7; intros <-; discriminate. }
      destruct H0 as (p1 & l1' & -> & Hp1). cbn [concat app] in Frest. inversion Frest as [|? q1' ? ? F1 F2 X3 X4]; subst.
      unfold finish_path in F1. destruct (p_n p1) as [|i t]; [congruence|]. cbn [List.length Nat.ltb Nat.leb] in F1.
      cbn [s_oversampling] in F1. rewrite ?Eo in F1.
      destruct a; [congruence| |]; destruct (py_index (p_j p1) (-1)); discriminate.
    + f_equal. eapply new_over; eassumption.
    + exfalso. destruct (build_inv _ _ _ Hb0) as (st & T' & l & r & _ & EO & _). rewrite Eo in EO. discriminate.
  - exists l, r, (Z.to_nat (Z.max l2T (p_J p))), ls, a. split; [exact R|].
    split; [exact (rd_left _ _ _ _ _ _ _ R)|exact (rd_right _ _ _ _ _ _ _ R)].
Qed.

(** An input of another length is rejected. *)
Theorem wrong_length support p out s N batch n x :
  (forall n t, 0 <= support n t) -> Scattering1D support p out = Ok s ->
  N_input_of (p_shape p) = Ok N -> 1 <= N -> 0 <= p_J p -> 1 <= p_max_order p ->
  nd_wf x -> nd_shape x = batch ++ [n] -> Z.of_nat n <> N ->
  exists e, paths np s x = Err e.
Proof.
  intros Hsup H EN HN HJ Hmo Hw Hsh Hn.
  destruct (paths np s x) as [S|e] eqn:HS; [exfalso|eauto].
  destruct (new_levels0 _ _ _ _ _ Hsup H EN HN HJ) as (Hne & Hl & Hr & Lphi & Lpsi).
  apply paths_inv in HS. destruct HS as (b & n' & x' & U0 & ls & a & gen & E1 & E2 & E3 & Els & Ea & Eg & EF).
  cbn [numpy_backend be_shape be_reshape_input be_pad] in E1, E2, E3.
  rewrite Hsh, split_last_snoc in E1. injection E1; intros <- <-. clear E1.
  destruct (np_reshape_input_inv _ _ _ Hw E2) as (D1 & m & Sx' & Em).
  destruct (np_pad_inv x' U0 [m; 1]%nat n _ _ Sx' E3) as (D2 & SU & _).
  unfold scattering1d in Eg. inv_bind Eg. rename v into U0h. cbn [numpy_backend be_rfft] in E.
  destruct (np_rfft_inv _ _ E) as (D3 & S3 & D4).
  inv_bind Eg. rename v into p0. inv_bind Eg. rename v into psi1. inv_bind Eg. clear Eg.
  assert (Epsi : psi1 = s_psi1 s).
  { apply new_inv in H. destruct H as (? & ? & ? & ? & ? & ? & ? & _ & _ & _ & _ & _ & _ & ->).
    unfold psis_of in E1. cbn [s_max_order s_psi1 s_psi2] in *.
    destruct (Z.to_nat (p_max_order p)) eqn:Em'; [lia|]. cbn in E1. congruence. }
  subst psi1. destruct (s_psi1 s) as [|f fs] eqn:Ef; [now apply Hne|].
  unfold enumerate in E4. cbn [List.length seq combine] in E4.
  apply mapM_ok in E4. inversion E4 as [|? l1 ? ll G1 G2 X1 X2]; subst.
  unfold order1 in G1. inv_bind G1. clear G1. unfold order1_modulus in E5. inv_bind E5. inv_bind E5.
  cbn [numpy_backend be_cdgmm] in E7. destruct (np_cdgmm_inv _ _ _ E7) as (_ & St & _).
  rewrite (Lpsi f _ (or_introl eq_refl) E6) in St. rewrite S3, SU in St.
  cbn [List.length trailing app skipn Nat.sub] in St. injection St. lia.
Qed.
