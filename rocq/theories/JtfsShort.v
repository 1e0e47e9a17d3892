(** How much a translation shorter than the averaging scale changes joint time-frequency coefficients, on the rows of one padded signal. *)
From Coq Require Import String Reals ZArith QArith List Bool Arith Lia Lra.
From Coquelicot Require Import Complex.
From Verif Require Import Base BaseProofs NdArray Backend Core1d Utils1d Utils1dProofs Frontend1d Frontend1dProofs NdProofs StackProofs Rows1d FrontRows Mats
  Factory1d FactoryProofs ComplexOps FilterBank1d FilterBank1dProofs Construct1d Shape1d PropFilters1d PropShapes1d Dft Conv1d Value1d Tabulated1d PropNumerics1d Invariance1d Norm1d Stability1d Energy1d
  Jtfs JtfsFront JtfsProofs JtfsKeys JtfsRows JtfsFmt JtfsFull JtfsConstruct JtfsMeta JtfsTotal PropJtfs JtfsReady JtfsRun SpecJtfsValue JtfsValue JtfsCoef PropJtfsValues
  JtfsParts JtfsStability JtfsEnergy Shift1d JtfsShift.
Import ListNotations.
Local Open Scope nat_scope.

Section Rows.
Context {P : Type}.
Notation filter := (Core1d.filter (nd C) P).
Variables (phi : filter) (psi1 psi2 : list filter) (N : nat) (ls : Z).
Hypothesis (Ht : jadm_time phi psi1 psi2 N ls true).

(** What the low-pass filter at resolution [2^k] lets through of a translation by [d] strides. *)
Definition small_shift (d : Z) (B : R) : Prop := forall k n m, (0 <= k <= ls)%Z -> level_ok phi k n -> m < n ->
  (Cmod (at_ (lev phi k) m) * Cmod (root n (Z.of_nat m * (Z.of_nat (p2 (ls - k)) * d)) - 1)%C <= B)%R.

Lemma rows1_short B d y m c : small_shift d B -> List.length y = N ->
  (mdist m c (rows1 phi psi1 ls Local (rotate (Z.of_nat (p2 ls) * d) y)) (rows1 phi psi1 ls Local y) <= B ^ 2 * nrg y * sum_of (fun f1 => l1 (idft (lev f1 0)) ^ 2)%R psi1)%R.
Proof.
  intros HB Hy. unfold rows1.
  apply (mdist_map (B ^ 2 * nrg y)%R _ (fun x f1 => sampled_lowpass (U1 ls Local f1 x) (lev phi (rate1 ls Local f1)) (2 ^ Z.to_nat (ls - rate1 ls Local f1)))).
  { apply Rmult_le_pos; [apply pow2_ge_0|apply nrg_pos]. }
  intros f1 H1. split; [apply pow2_ge_0|]. pose proof (jt_N _ _ _ _ _ _ Ht) as HN.
  destruct (kk_facts phi psi1 psi2 N ls true Ht f1 H1) as (K1 & _ & _ & K4 & _).
  destruct (jt_psi1 _ _ _ _ _ _ Ht f1 H1) as (_ & L1 & _ & Lp). rewrite (kk_rate ls Local f1 : kk ls true f1 = _) in *.
  rewrite (U1_rotate phi psi1 psi2 N ls Local Ht f1 d y H1 Hy). set (k := rate1 ls Local f1) in *.
  assert (EL : List.length (U1 ls Local f1 y) = N / p2 k) by (unfold U1; rewrite sampled_envelope_length, Hy; reflexivity).
  split; [now rewrite !sampled_lowpass_length, rotate_length|].
  eapply Rle_trans; [apply (lowpass_shift _ _ _ _ B)|].
  - rewrite (level_length _ _ _ Lp), EL. reflexivity.
  - rewrite EL. exact K4.
  - rewrite EL. intros mm Hmm. now apply HB.
  - rewrite Rmult_assoc. apply Rmult_le_compat_l; [apply pow2_ge_0|]. rewrite Rmult_comm. unfold U1. apply nrg_envelope; [lia|]. rewrite (level_length _ _ _ L1). congruence.
Qed.
Lemma rows2_energy f2 y m c : In f2 psi2 -> List.length y = N ->
  (mdist m c (rows2 psi1 ls Local f2 y) (map (map (Cmult (RtoC 0))) (rows2 psi1 ls Local f2 y)) <= nrg y * rows2_gain2 psi1 ls Local f2)%R.
Proof.
  intros H2 Hy. rewrite <- Rabs_R0 at 1. rewrite <- rows2_scal. apply (rows2_close2 phi psi1 psi2 N ls Local Ht); try assumption; [apply nrg_pos|].
  split; [apply map_length|]. rewrite nrg_dist2. lra.
Qed.
End Rows.

Section Joint.
Context {P : Type}.
Notation filter := (Core1d.filter (nd C) P).
Variables (phi : filter) (ls : Z) (a : avg) (phi_fr : filter) (Nfr : nat) (lsf : Z) (af : avg).

Lemma modulus_energy X (psi : filter) c : 0 < Nfr -> level_ok psi 0 Nfr ->
  (rsum Nfr (fun p => rsum c (fun u => Cmod (joint_modulus Nfr X psi p u) ^ 2)) <= l1 (idft (lev psi 0)) ^ 2 * mdist Nfr c X (map (map (Cmult (RtoC 0))) X))%R.
Proof.
  intros HN Hl. eapply Rle_trans; [|apply modulus_close2; assumption]. right. apply rsum_ext. intros p _. apply rsum_ext. intros u _.
  rewrite modulus_scal by lra. do 2 f_equal. ring.
Qed.
(** One averaged row of second order. *)
Lemma averaged_short B e j M (psi : filter) kf c p V : 0 < c -> (forall row, In row M -> List.length row = c) -> level_ok phi j c ->
  (forall m, m < c -> (Cmod (at_ (lev phi j) m) * Cmod (root c (Z.of_nat m * e) - 1)%C <= B)%R) ->
  (rsum V (fun v => gap (at_ (averaged_row phi ls Local Nfr (Some j) (map (rotate e) M) psi kf c p) v) (at_ (averaged_row phi ls Local Nfr (Some j) M psi kf c p) v))
   <= B ^ 2 * rsum c (fun u => Cmod (joint_modulus Nfr M psi (2 ^ Z.to_nat kf * p) u) ^ 2))%R.
Proof.
  intros Hc HM Hl HB. unfold averaged_row. rewrite (modulus_rotate Nfr psi c M Hc HM). set (row := map _ (seq 0 c)).
  assert (El : List.length row = c) by (unfold row; now rewrite map_length, seq_length).
  apply close2_any. unfold time_average. split; [now rewrite !sampled_lowpass_length, rotate_length|].
  eapply Rle_trans; [apply (lowpass_shift _ _ _ _ B); rewrite ?El; try assumption; rewrite (level_length _ _ _ Hl); reflexivity|].
  apply Rmult_le_compat_l; [apply pow2_ge_0|]. right. unfold nrg. rewrite El. apply rsum_ext. intros u Hu. unfold row. now rewrite at_map_seq by exact Hu.
Qed.
(** From the averaged rows to the coefficients of a path. *)
Lemma joint_value_rows Bd j2 X Y (psi : filter) spin kf n R V : 0 < Nfr / 2 ^ Z.to_nat kf ->
  (af = Local -> spin <> 0%Z -> level_ok phi_fr kf (Nfr / 2 ^ Z.to_nat kf)) -> R <= freq_rows Nfr lsf af spin kf ->
  (rsum (Nfr / 2 ^ Z.to_nat kf) (fun p => rsum V (fun v => gap (at_ (averaged_row phi ls a Nfr j2 X psi kf n p) v) (at_ (averaged_row phi ls a Nfr j2 Y psi kf n p) v))) <= Bd)%R ->
  (rsum R (fun r => rsum V (fun v => gap (joint_value phi ls a phi_fr Nfr lsf af j2 X psi spin kf n r v) (joint_value phi ls a phi_fr Nfr lsf af j2 Y psi spin kf n r v)))
   <= Bd * freq_gain2 phi_fr Nfr af spin kf)%R.
Proof.
  intros Hk Hf HR H1. set (K := Nfr / 2 ^ Z.to_nat kf) in *. pose proof (freq_gain2_pos phi_fr Nfr af spin kf) as HG'.
  unfold joint_value. unfold freq_rows in HR. fold K in HR. destruct (Z.eqb_spec spin 0) as [E0|Hs].
  - assert (Eg : freq_gain2 phi_fr Nfr af spin kf = 1%R) by (unfold freq_gain2; rewrite E0; reflexivity). rewrite Eg, Rmult_1_r.
    eapply Rle_trans; [|exact H1]. apply (rsum_more R K (fun p => rsum V (fun v => gap (at_ (averaged_row phi ls a Nfr j2 X psi kf n p) v) (at_ (averaged_row phi ls a Nfr j2 Y psi kf n p) v)))); [|exact HR].
    intros p. apply rsum_pos. intros; apply gap_pos.
  - fold K. rewrite rsum_swap.
    apply Rle_trans with (rsum V (fun v => freq_gain2 phi_fr Nfr af spin kf * rsum K (fun p => gap (at_ (averaged_row phi ls a Nfr j2 X psi kf n p) v) (at_ (averaged_row phi ls a Nfr j2 Y psi kf n p) v)))%R).
    + apply rsum_le. intros v _.
      rewrite <- (dist2_seq K (fun p => at_ (averaged_row phi ls a Nfr j2 X psi kf n p) v) (fun p => at_ (averaged_row phi ls a Nfr j2 Y psi kf n p) v)).
      apply freq_average_close2; rewrite ?map_length, ?seq_length; try reflexivity; try assumption. intros Ea. now apply Hf.
    + rewrite rsum_scal, Rmult_comm. apply Rmult_le_compat_r; [exact HG'|]. rewrite rsum_swap. exact H1.
Qed.
End Joint.

Section Run.
Variables (t : jtfs (nd C) R) (n l r mx : nat) (ls : Z) (Nfr : nat) (lsf : Z) (af : avg).
Hypothesis (Hr : jready sgnR t n l r mx ls Local Nfr lsf af).
Notation b := (t_base t).
Notation N := (l + n + r).
Notation es := (entries complex_ops sgnR t n l r ls Local Nfr lsf af).
Notation emat := (emat t ls Local lsf af).

(** The norms of the filters of a path, without the last low-pass filter over time. *)
Definition short_gain (key : list nat) : R :=
  let tail f psi := (f * l1 (idft (lev psi 0)) ^ 2 * freq_gain2 (t_phi_fr t) Nfr af (sgnR (f_xi psi)) (fr_rate lsf af psi))%R in
  match key with
  | [nf] => match nth_error (List.filter (fun f => (0 <=? sgnR (f_xi f))%Z) (t_psis_fr t)) nf with
            | Some psi => tail (sum_of (fun f1 => l1 (idft (lev f1 0)) ^ 2)%R (s_psi1 b)) psi
            | None => 0%R end
  | [n2; nf] => match nth_error (s_psi2 b) n2, nth_error (t_psis_fr t) nf with
                | Some f2, Some psi => tail (rows2_gain2 (s_psi1 b) ls Local f2) psi
                | _, _ => 0%R end
  | _ => 0%R
  end.

Lemma emat_short B d e y : small_shift (s_phi b) ls d B -> In e es -> List.length y = N ->
  (rsum (jrows t lsf af e) (fun i => rsum (jcols ls Local e) (fun v =>
     gap (at_ (nth i (emat e (rotate (Z.of_nat (p2 ls) * d) y)) []) v) (at_ (nth i (emat e y) []) v))) <= B ^ 2 * nrg y * short_gain (q_n (e_q e)))%R.
Proof.
  intros HB He Hy. pose proof (jr_time _ _ _ _ _ _ _ _ _ _ _ Hr) as HT. pose proof (jr_fr _ _ _ _ _ _ _ _ _ _ _ Hr) as HF.
  destruct (entry_spec_padded t n l r mx ls Local Nfr lsf af Hr e He) as (psi & j2 & G & c & m & Hsrc & Hcn & Hm0 & Hpsi & Hsp & Hjf & Hn1 & Hj2 & Hem & _ & _ & _ & Hval).
  destruct (entry_rows t _ _ _ _ _ _ _ _ _ Hr e psi He Hjf Hsp Hem Hpsi) as (W1 & _). rewrite Hsp in W1, Hval.
  pose proof (entries_fmt complex_ops complex_ops_ok sgnR t _ _ _ _ _ _ _ _ _ Hr e He) as HFm.
  assert (Hc : 0 < c) by (rewrite Hcn; apply (fo_n _ _ _ _ _ _ _ _ _ _ HFm)).
  assert (Hlev : forall j, j2 = Some j -> level_ok (s_phi b) j c).
  { intros j Ej. rewrite Hj2 in Ej. unfold j2_of in Ej. destruct (second (e_q e)) eqn:Es; [|discriminate]. injection Ej as <-. rewrite Hcn.
    apply (fo_time _ _ _ _ _ _ _ _ _ _ HFm eq_refl Es). }
  destruct (jf_psi _ _ _ _ _ _ HF psi Hpsi) as (F1 & F2 & F3). rewrite kf_rate in F3.
  assert (HNfr : 0 < Nfr). { pose proof (jf_room _ _ _ _ _ _ HF). pose proof (jt_ne _ _ _ _ _ _ HT). destruct (s_psi1 b); [congruence|cbn in *; lia]. }
  assert (Hk : 0 < Nfr / 2 ^ Z.to_nat (fr_rate lsf af psi)) by (apply (div_p2_pos (fr_rate lsf af psi)); assumption).
  assert (Hphi : af = Local -> sgnR (f_xi psi) <> 0%Z -> level_ok (t_phi_fr t) (fr_rate lsf af psi) (Nfr / 2 ^ Z.to_nat (fr_rate lsf af psi))).
  { intros Ea Es. destruct (jr_aligned _ _ _ _ _ _ _ _ _ _ _ Hr Ea psi Hpsi Es) as (_ & _ & A). unfold fr_rate. rewrite Ea. exact A. }
  set (z := (Z.of_nat (p2 ls) * d)%Z) in *. set (kf := fr_rate lsf af psi) in *.
  set (val := fun z => joint_value (s_phi b) ls Local (t_phi_fr t) Nfr lsf af j2 (G z) psi (sgnR (f_xi psi)) kf c) in *.
  rewrite (rsum_ext _ _ (fun i => rsum (jcols ls Local e) (fun v => gap (val (rotate z y) i v) (val y i v)))).
  2:{ intros i Hi. apply rsum_ext. intros v Hv. rewrite !Hval by (rewrite ?rotate_length; assumption). reflexivity. }
  clear Hval. unfold val. clear val. pose proof (jt_ls _ _ _ _ _ _ HT) as Hls.
  destruct Hsrc as [nf psi E1|n2 nf f2 psi E1 E2]; unfold short_gain; rewrite E1, ?E2.
  - eapply Rle_trans; [apply (joint_value_close2 (s_phi b) ls Local (t_phi_fr t) Nfr lsf af None _ _ psi); try assumption; discriminate|].
    unfold time_gain2. rewrite Rmult_1_r, <- !Rmult_assoc. apply Rmult_le_compat_r; [apply freq_gain2_pos|]. apply Rmult_le_compat_r; [apply pow2_ge_0|].
    now apply (rows1_short (s_phi b) (s_psi1 b) (s_psi2 b) N ls HT B d).
  - pose proof (nth_error_In _ _ E1) as H2. specialize (Hlev _ eq_refl).
    rewrite <- !Rmult_assoc. apply joint_value_rows; try assumption.
    set (e2 := (Z.of_nat (p2 (ls - f_j f2)) * d)%Z).
    assert (Er : rows2 (s_psi1 b) ls Local f2 (rotate z y) = map (rotate e2) (rows2 (s_psi1 b) ls Local f2 y)) by (now apply rows2_rotate with (phi := s_phi b) (psi2s := s_psi2 b) (N := N)).
    rewrite Er. set (c2 := N / 2 ^ Z.to_nat (f_j f2)) in *. set (M := rows2 (s_psi1 b) ls Local f2 y) in *.
    assert (HM : forall row, In row M -> List.length row = c2) by (intros row Hrow; now apply (rows2_length (s_phi b) (s_psi1 b) (s_psi2 b) N ls Local HT f2 y)).
    apply Rle_trans with (rsum (Nfr / 2 ^ Z.to_nat kf) (fun p => B ^ 2 * rsum c2 (fun u => Cmod (joint_modulus Nfr M psi (2 ^ Z.to_nat kf * p) u) ^ 2))%R).
    + apply rsum_le. intros p _. apply averaged_short; try assumption. intros mm Hmm. unfold e2. apply (HB (f_j f2) c2 mm); try assumption.
      destruct (List.filter (fun f1 => (f_j f1 <? f_j f2)%Z) (s_psi1 b)) as [|f1 fs] eqn:Ef; [cbn in Hm0; lia|].
      assert (Hf1 : In f1 (f1 :: fs)) by now left. rewrite <- Ef in Hf1. apply filter_In in Hf1 as [Hf1 Hj1]. apply Z.ltb_lt in Hj1.
      pose proof (jt_psi2 _ _ _ _ _ _ HT f1 f2 Hf1 H2 Hj1). pose proof (jt_psi1 _ _ _ _ _ _ HT f1 Hf1). lia.
    + rewrite rsum_scal, !Rmult_assoc. apply Rmult_le_compat_l; [apply pow2_ge_0|].
      eapply Rle_trans; [apply (rsum_every Nfr (2 ^ Z.to_nat kf) (fun p => rsum c2 (fun u => Cmod (joint_modulus Nfr M psi p u) ^ 2)%R)); intros; apply rsum_pos; intros; apply pow2_ge_0|].
      eapply Rle_trans; [apply modulus_energy; assumption|]. rewrite <- Rmult_assoc, Rmult_comm. apply Rmult_le_compat_r; [apply pow2_ge_0|].
      now apply (rows2_energy (s_phi b) (s_psi1 b) (s_psi2 b) N ls HT).
Qed.
End Run.
