(** Property C103: Scattering1D is stable in the mean square, and its output energy is bounded by its input energy. *)
From Coq Require Import String Reals ZArith QArith List Bool Lia Lra Permutation.
From Coquelicot Require Import Complex.
From Verif Require Import Base BaseProofs NdArray Backend Core1d Utils1d Utils1dProofs Frontend1d Spec1d Core1dProofs
  Frontend1dProofs NdProofs Rows1d FrontRows Factory1d FactoryProofs ComplexOps FilterBank1d FilterBank1dProofs Construct1d
  Shape1d PropFilters1d PropShapes1d Dft Conv1d Value1d Tabulated1d PropNumerics1d Invariance1d Norm1d PropInvariance1d Stability1d
  PropStability1d Energy1d.
Import ListNotations.
Local Open Scope Z_scope.
Local Open Scope res_scope.

(** The squared distance of the coefficients of a path, summed over time, is at most three times the squared gain of the
    path (C85) times the squared distance of the signals. Three, because the reflection of the borders can repeat a sample
    three times. *)
Theorem C103_mean_square : forall support p out s N a ls batch x y l,
  constructed support p out s N -> s_average s = Ok a -> s_log2_stride s = Ok ls ->
  nd_wf x -> nd_shape x = batch ++ [Z.to_nat N] -> (0 < prod batch)%nat ->
  scattering np (with_out s "list") x = Ok (OutList l) ->
  nd_wf y -> nd_dtype y = Real -> nd_shape y = nd_shape x ->
  exists l', scattering np (with_out s "list") y = Ok (OutList l') /\ map p_n l' = map p_n l /\
    forall q q' i, In q l -> In q' l' -> p_n q' = p_n q -> (i < prod batch)%nat ->
      exists L, nd_shape (p_coef q) = batch ++ [L] /\ nd_shape (p_coef q') = batch ++ [L] /\
        (rsum L (fun t => Cmod (at_ (signal L i (p_coef q)) t - at_ (signal L i (p_coef q')) t)%C ^ 2) <=
         3 * path_gain s N a ls (p_n q) ^ 2 *
         rsum (Z.to_nat N) (fun u => Cmod (at_ (signal (Z.to_nat N) i x) u - at_ (signal (Z.to_nat N) i y) u)%C ^ 2))%R.
Proof.
  intros support p out s N a ls batch x y l Hc Ea Els Hw Hsh Hb Hrun Hwy Hdy Hsy. rewrite Hsh in Hsy.
  destruct (run_both _ _ _ _ _ batch x y l Hc Hw Hsh Hb Hrun Hwy Hdy Hsy) as (l' & pl & pr & m & ls' & a' & Hr & Ek & Rd & F).
  rewrite (rd_avg _ _ _ _ _ _ _ Rd) in Ea. injection Ea as ->. rewrite (rd_stride _ _ _ _ _ _ _ Rd) in Els. injection Els as ->.
  exists l'. split; [exact Hr|]. split; [exact Ek|]. intros q q' i Hq Hq' Eq Hi.
  destruct (F q q' Hq Hq' Eq) as (Hk & S1 & S2 & V). cbv zeta in V. exists (final_len s (Z.to_nat N) pl ls a (p_n q)).
  split; [exact S1|]. split; [exact S2|]. destruct (V i Hi) as (L1 & L2 & -> & ->). clear V.
  pose proof (rd_l _ _ _ _ _ _ _ Rd) as Hl. pose proof (rd_r _ _ _ _ _ _ _ Rd) as Hr'. pose proof (rd_adm _ _ _ _ _ _ _ Rd) as Ha.
  assert (ENp : padded_length s N = (pl + Z.to_nat N + pr)%nat).
  { unfold padded_length. rewrite (rd_left _ _ _ _ _ _ _ Rd), (rd_right _ _ _ _ _ _ _ Rd). lia. }
  pose proof (gain_path _ _ _ _ _ _ _ _ _ _ _ Hc Rd ENp Hk) as EG.
  set (xs := signal (Z.to_nat N) i x) in *. set (ys := signal (Z.to_nat N) i y) in *.
  set (D := rsum (Z.to_nat N) _). assert (D0 : (0 <= D)%R) by (apply rsum_pos; intros; apply pow2_ge_0).
  assert (Hcl : close2 D xs ys) by (split; [congruence|]; unfold dist2; rewrite L1; right; reflexivity).
  apply (close2_pad D pl pr (Z.to_nat N)) in Hcl; try assumption.
  apply (value_close2 _ _ _ _ _ _ _ Ha (3 * D) _ _ (p_n q)) in Hcl; [|apply pad_row_length|exact Hk].
  assert (Lv : List.length (value complex_ops (s_phi s) (s_psi1 s) (s_psi2 s) (pl + Z.to_nat N + pr) ls (is_local a) (p_n q)
                 (pad_reflect_row complex_ops pl pr (Z.to_nat N) xs)) = ((pl + Z.to_nat N + pr) / p2 (resolution (s_psi1 s) (s_psi2 s) ls (is_local a) (p_n q)))%nat).
  { apply (value_length _ _ _ (s_max_order s =? 2)); [exact Ha|apply pad_row_length|exact Hk]. }
  unfold final, final_len.
  set (vx := value _ _ _ _ _ _ _ _ (pad_reflect_row complex_ops pl pr (Z.to_nat N) xs)) in *.
  set (vy := value _ _ _ _ _ _ _ _ (pad_reflect_row complex_ops pl pr (Z.to_nat N) ys)) in *.
  set (g := gain _ _ _ _ _ _) in *.
  assert (Hs : a <> Global -> (3 * D * g ^ 2 = 3 * path_gain s N a ls (p_n q) ^ 2 * D)%R).
  { intros Hne. rewrite <- EG. replace (match a with Global => _ | _ => 1%R end) with 1%R by (destruct a; congruence). ring. }
  destruct a.
  - rewrite <- Hs by discriminate. now apply close2_slice.
  - cbn [rsum]. rewrite Rplus_0_l. unfold at_ at 1 2. cbn [nth]. rewrite !osum_at.
    eapply Rle_trans; [apply (close2_sum _ _ _ Hcl)|]. rewrite Lv. cbn [is_local] in *. rewrite <- EG, ENp.
    set (c := ((pl + Z.to_nat N + pr) / _)%nat).
    assert (Hc1 : (INR c <= INR c ^ 2)%R).
    { destruct c as [|c]; [cbn; lra|]. rewrite S_INR. pose proof (pos_INR c). nra. }
    replace (3 * (g * INR c) ^ 2 * D)%R with (INR c ^ 2 * (3 * D * g ^ 2))%R by ring.
    apply Rmult_le_compat_r; [|exact Hc1]. pose proof (pow2_ge_0 g). apply Rmult_le_pos; lra.
  - rewrite <- Hs by discriminate. now apply close2_slice.
Qed.
Print Assumptions C103_mean_square.

(** The energy of the coefficients of a path is at most three times the squared gain of the path times the energy of the signal. *)
Theorem C103_energy : forall support p out s N a ls batch x l,
  constructed support p out s N -> s_average s = Ok a -> s_log2_stride s = Ok ls ->
  nd_wf x -> nd_shape x = batch ++ [Z.to_nat N] -> (0 < prod batch)%nat ->
  scattering np (with_out s "list") x = Ok (OutList l) ->
  forall q i, In q l -> (i < prod batch)%nat ->
    exists L, nd_shape (p_coef q) = batch ++ [L] /\
      (rsum L (fun t => Cmod (at_ (signal L i (p_coef q)) t) ^ 2) <=
       3 * path_gain s N a ls (p_n q) ^ 2 * rsum (Z.to_nat N) (fun u => Cmod (at_ (signal (Z.to_nat N) i x) u) ^ 2))%R.
Proof.
  intros support p out s N a ls batch x l Hc Ea Els Hw Hsh Hb Hrun q i Hq Hi.
  set (y := mk_nd Real (nd_shape x) (map (Cmult (RtoC 0)) (nd_data x))).
  assert (Hwy : nd_wf y) by (unfold nd_wf, y; cbn [nd_data nd_shape]; rewrite map_length; exact Hw).
  destruct (C29_homogeneous _ _ _ _ _ batch x l 0 Hc Hw Hsh Hb Hrun) as (l0 & Hr0 & _ & F0). fold y in Hr0.
  destruct (C103_mean_square _ _ _ _ _ _ _ batch x y l Hc Ea Els Hw Hsh Hb Hrun Hwy eq_refl eq_refl) as (l' & Hr & Ek & F).
  rewrite Hr in Hr0. injection Hr0 as <-.
  assert (Hin : exists q', In q' l' /\ p_n q' = p_n q).
  { assert (H : In (p_n q) (map p_n l')) by (rewrite Ek; now apply in_map). apply in_map_iff in H. destruct H as (q' & E & H). eauto. }
  destruct Hin as (q' & Hq' & Eq). destruct (F q q' i Hq Hq' Eq Hi) as (L & S1 & S2 & B).
  destruct (F0 q q' Hq Hq' Eq) as (L0 & T1 & T2 & V). rewrite S1 in T1. apply app_inj_tail in T1. destruct T1 as [_ <-].
  specialize (V i Hi). exists L. split; [exact S1|].
  assert (Z0 : forall c v t, c = 0%R -> at_ (map (Cmult (RtoC c)) v) t = RtoC 0).
  { intros c v t ->. destruct (Nat.lt_ge_cases t (List.length v)) as [H|H]; [rewrite at_map_C by exact H; apply Cmult_0_l|].
    apply at_over. now rewrite map_length. }
  eapply Rle_trans; [|eapply Rle_trans; [exact B|]]; right.
  - apply rsum_ext. intros t _. rewrite V, Z0 by (destruct (Nat.eqb _ 0); [reflexivity|apply Rabs_R0]). do 2 f_equal. ring.
  - f_equal. apply rsum_ext. intros u _. do 2 f_equal.
    replace (signal (Z.to_nat N) i y) with (map (Cmult (RtoC 0)) (signal (Z.to_nat N) i x)) by (unfold signal, y; cbn [nd_data]; now rewrite skipn_map, firstn_map).
    rewrite Z0 by reflexivity. ring.
Qed.
Print Assumptions C103_energy.

(** At stride 1, and up to the first order when there is no averaging, the gain of a path is 1. *)
Lemma unit_gain : forall support p out s N a ls batch x l,
  constructed support p out s N -> s_average s = Ok a -> s_log2_stride s = Ok ls ->
  2 <= N ->
  nd_wf x -> nd_shape x = batch ++ [Z.to_nat N] -> (0 < prod batch)%nat ->
  scattering np (with_out s "list") x = Ok (OutList l) ->
  forall q, In q l -> (a = Local /\ ls = 0) \/ (a = NoAvg /\ (List.length (p_n q) <= 1)%nat) ->
    path_gain s N a ls (p_n q) = 1%R.
Proof.
  intros support p out s N a ls batch x l Hc Ea Els Hn Hw Hsh Hb Hrun q Hq Hcase.
  assert (Hk : valid_key (s_psi1 s) (s_psi2 s) (s_max_order s =? 2) (p_n q)).
  { destruct Hc as (Hsup & H & EN & HN & HJ & Hmo).
    destruct (run_final _ _ _ _ _ _ _ _ Hsup H EN HN HJ Hmo Hw Hsh ltac:(lia) Hrun) as (_ & pl & pr & m & ls' & a' & Rd & F').
    rewrite Forall_forall in F'. apply (F' q Hq). }
  assert (Hj : forall f, In f (s_psi1 s) -> 0 <= f_j f).
  { destruct Hc as (Hsup & H & EN & HN & HJ & Hmo). intros f Hf.
    destruct (run_final _ _ _ _ _ _ _ _ Hsup H EN HN HJ Hmo Hw Hsh ltac:(lia) Hrun) as (_ & pl & pr & m & ls' & a' & Rd & _).
    apply (adm_psi1 _ _ _ _ _ _ _ (rd_adm _ _ _ _ _ _ _ Rd) f Hf). }
  destruct (C32_l1_normalised _ _ _ _ _ Hc) as (P1 & P2 & _).
  assert (Q1 : norm1 s N (s_phi s) 0 = 1%R) by (rewrite norm1_0; exact P1).
  assert (Q2 : forall f, In f (s_psi1 s) \/ In f (s_psi2 s) -> norm1 s N f 0 = 1%R) by (intros f Hf; rewrite norm1_0; apply P2; auto).
  clear - Hk Hcase Hj Q1 Q2. destruct Hk as [|n1 f1 E1|n1 n2 f1 f2 H2 E1 E2 Hjj]; unfold path_gain; rewrite ?E1, ?E2.
  - destruct Hcase as [[E0 E3]|[E0 _]]; subst a; [exact Q1|reflexivity].
  - pose proof (or_introl (B := In f1 (s_psi2 s)) (nth_error_In _ _ E1)) as I1.
    destruct Hcase as [[E0 E3]|[E0 _]]; subst a; [subst ls|]; rewrite (Q2 f1 I1); [|reflexivity].
    rewrite Z.min_r by (apply Hj; eapply nth_error_In; exact E1). rewrite Q1. ring.
  - pose proof (or_introl (B := In f1 (s_psi2 s)) (nth_error_In _ _ E1)) as I1.
    pose proof (or_intror (A := In f2 (s_psi1 s)) (nth_error_In _ _ E2)) as I2.
    destruct Hcase as [[E0 E3]|[E0 Hlen]]; subst a; [subst ls|cbn in Hlen; lia]. rewrite (Q2 f1 I1).
    pose proof (Hj f1 (nth_error_In _ _ E1)). rewrite (Z.min_r (f_j f1)), (Z.min_r (f_j f2)) by lia. rewrite (Q2 f2 I2), Q1. ring.
Qed.
Theorem C103_unit_gain : forall support p out s N a ls batch x y l l',
  constructed support p out s N -> s_average s = Ok a -> s_log2_stride s = Ok ls ->
  2 <= N ->
  nd_wf x -> nd_shape x = batch ++ [Z.to_nat N] -> nd_wf y -> nd_shape y = nd_shape x ->
  scattering np (with_out s "list") x = Ok (OutList l) -> scattering np (with_out s "list") y = Ok (OutList l') ->
  forall q q' i L, In q l -> In q' l' -> p_n q' = p_n q -> (i < prod batch)%nat -> nd_shape (p_coef q) = batch ++ [L] ->
    (a = Local /\ ls = 0) \/ (a = NoAvg /\ (List.length (p_n q) <= 1)%nat) ->
    (rsum L (fun t => Cmod (at_ (signal L i (p_coef q)) t - at_ (signal L i (p_coef q')) t)%C ^ 2) <=
     3 * rsum (Z.to_nat N) (fun u => Cmod (at_ (signal (Z.to_nat N) i x) u - at_ (signal (Z.to_nat N) i y) u)%C ^ 2))%R.
Proof.
  intros support p out s N a ls batch x y l l' Hc Ea Els Hn Hw Hsh Hwy Hsy Hrun Hruny q q' i L Hq Hq' Eq Hi HL Hcase.
  assert (Hdy : nd_dtype y = Real).
  { destruct Hc as (Hsup & H & EN & HN & HJ & Hmo). rewrite Hsh in Hsy.
    now destruct (run_final _ _ _ _ _ _ _ _ Hsup H EN HN HJ Hmo Hwy Hsy ltac:(lia) Hruny) as (Hd & _). }
  destruct (C103_mean_square _ _ _ _ _ _ _ batch x y l Hc Ea Els Hw Hsh ltac:(lia) Hrun Hwy Hdy Hsy) as (l1 & Hr1 & _ & F).
  rewrite Hruny in Hr1. injection Hr1 as <-. destruct (F q q' i Hq Hq' Eq Hi) as (L' & S1 & S2 & B).
  rewrite S1 in HL. apply app_inj_tail in HL. destruct HL as [_ <-]. eapply Rle_trans; [exact B|].
  rewrite (unit_gain _ _ _ _ _ _ _ batch x l Hc Ea Els Hn Hw Hsh ltac:(lia) Hrun q Hq Hcase). lra.
Qed.
Print Assumptions C103_unit_gain.

(** A Scattering1D object of stride 1 applied to two different signals; a second-order path. *)
Example C103_instance : exists s l l' q q',
  constructed (fun _ _ => 30) (mk_params 4 100 (QInt 1) TNone (SInt 1) 2) "list" s 100 /\
  s_average s = Ok Local /\ s_log2_stride s = Ok 0 /\
  scattering np (with_out s "list") ramp = Ok (OutList l) /\ scattering np (with_out s "list") ramp_back = Ok (OutList l') /\
  In q l /\ In q' l' /\ p_n q = [0; 4]%nat /\ p_n q' = [0; 4]%nat /\
  at_ (signal 100 0 ramp) 0 <> at_ (signal 100 0 ramp_back) 0 /\
  exists L, nd_shape (p_coef q) = [2; L]%nat /\
  (rsum L (fun t => Cmod (at_ (signal L 0 (p_coef q)) t - at_ (signal L 0 (p_coef q')) t)%C ^ 2) <=
   3 * rsum 100 (fun u => Cmod (at_ (signal 100 0 ramp) u - at_ (signal 100 0 ramp_back) u)%C ^ 2))%R.
Proof.
  destruct stride_one_object as (s & Hc & Ea & Els & EL & Epl & Epr & Hn & Run).
  destruct (Run 2%nat ramp eq_refl eq_refl eq_refl) as (l & Hl & Hk).
  destruct (Run 2%nat ramp_back eq_refl eq_refl eq_refl) as (l' & Hl' & Hk').
  assert (Hin : forall l : list (path (nd C)), map p_n l = map p_n l -> In [0; 4]%nat (map p_n l) -> exists q, In q l /\ p_n q = [0; 4]%nat).
  { intros l0 _ H. apply in_map_iff in H. destruct H as (q & E & H). eauto. }
  destruct (Hin l eq_refl ltac:(rewrite Hk; cbn; tauto)) as (q & Hq & Eq).
  destruct (Hin l' eq_refl ltac:(rewrite Hk'; cbn; tauto)) as (q' & Hq' & Eq').
  exists s, l, l', q, q'. do 9 (split; [assumption|]). split.
  { cbn. intros H. apply (f_equal fst) in H. cbn in H. lra. }
  rewrite <- EL in Hn.
  destruct (C103_mean_square _ _ _ _ _ _ _ [2]%nat ramp ramp_back l Hc Ea Els eq_refl eq_refl ltac:(cbn; lia) Hl eq_refl eq_refl eq_refl) as (l1 & Hl1 & _ & F).
  rewrite Hl' in Hl1. injection Hl1 as <-.
  destruct (F q q' 0%nat Hq Hq' ltac:(congruence) ltac:(cbn; lia)) as (L & SL & _).
  exists L. split; [exact SL|].
  apply (C103_unit_gain _ _ _ _ _ _ _ [2]%nat ramp ramp_back l l' Hc Ea Els ltac:(lia) eq_refl eq_refl eq_refl eq_refl Hl Hl' q q' 0%nat L Hq Hq'
           ltac:(congruence) ltac:(cbn; lia) SL (or_introl (conj eq_refl eq_refl))).
Qed.
