(** Property C111: the sum by which morlet_1d divides each wavelet of Scattering1D. *)
From Coq Require Import String Reals ZArith QArith List Bool Lia Lra.
From Coquelicot Require Import Complex.
From Verif Require Import Base BaseProofs NdArray Backend Core1d Utils1d Utils1dProofs Frontend1d ComplexOps FilterBank1d
  FilterBank1dProofs Factory1d FactoryProofs Construct1d Shape1d PropFilters1d PropShapes1d Dft Conv1d Rows1d Value1d Tabulated1d
  PropNumerics1d Invariance1d Norm1d PropFilterShape1d Normal1d.
Import ListNotations.
Local Open Scope R_scope.

(** filter_bank.py:97, the divisor: the sum of the magnitudes of the inverse DFT of the filter before division. *)
Definition divisor (Np : nat) (f : Core1d.filter (nd C) R) : R :=
  rsum Np (fun n => Cmod (idft_at Np (fun k => RtoC (morlet_raw Np (Some (f_xi f)) (f_sigma f) k)) (Z.of_nat n))).

(** Every wavelet of an object built for two samples or more; the response at the Nyquist frequency is positive.
    Partial: one sample is excluded, see [C111_single_sample_refuted]. *)
Theorem C111_divisor_partial : forall support p out s N, constructed support p out s N -> (2 <= N)%Z ->
  forall f, In f (s_psi1 s) \/ In f (s_psi2 s) ->
  0 < divisor (padded_length s N) f /\
  exists v, at_ (lev f 0) (padded_length s N / 2) = RtoC v /\ 0 < v.
Proof.
  intros support p out s N Hc H2 f Hf.
  destruct (padded_even _ _ _ _ _ Hc H2) as (M & HM & EM). destruct (bank_elem _ _ _ _ _ _ Hc Hf) as [Hx Hs].
  pose proof (nyquist_pos M (f_sigma f) (f_xi f) HM Hs Hx) as V.
  assert (D : 0 < l1_norm (2 * M) (morlet_raw (2 * M) (Some (f_xi f)) (f_sigma f))).
  { apply (l1_norm_pos (2 * M) ltac:(lia) _ M); [lia|]. now apply Rgt_not_eq. }
  split; [rewrite EM; exact D|].
  destruct Hc as (Hsup & H & EN & HN & HJ & Hmo). destruct (new_filters _ _ _ _ _ Hsup H EN HN HJ) as (HNp & _ & _ & F).
  destruct (F f Hf) as (_ & _ & Ht). rewrite (tabulated_lev0 _ _ _ Ht), EM.
  exists (morlet_at (2 * M) (Some (f_xi f)) (f_sigma f) M). split.
  - replace (2 * M / 2)%nat with M by (rewrite Nat.mul_comm, Nat.div_mul; lia). apply morlet_data_at. lia.
  - unfold morlet_at. now apply Rdiv_lt_0_compat.
Qed.
Print Assumptions C111_divisor_partial.

(** One sample: there is nothing to pad, the only frequency is zero, and every wavelet is divided by zero. *)
Theorem C111_single_sample_refuted :
  (forall support p out s, constructed support p out s 1 ->
     padded_length s 1 = 1%nat /\ s_psi1 s <> [] /\
     forall f, In f (s_psi1 s) \/ In f (s_psi2 s) ->
       morlet_raw 1 (Some (f_xi f)) (f_sigma f) 0 = 0 /\ divisor (padded_length s 1) f = 0) /\
  exists s, constructed (fun _ _ => 30%Z) (mk_params 0 1 (QInt 1) TNone SNone 2) "array" s 1.
Proof.
  split.
  - intros support p out s Hc. pose proof Hc as (Hsup & H & EN & HN & HJ & Hmo).
    assert (EL : padded_length s 1 = 1%nat).
    { apply new_inv in H. destruct H as (b & Qs & T & l2T & phi & psi1s & psi2s & Hb & _ & _ & _ & _ & _ & Es).
      assert (EbN : b_N b = 1%Z). { destruct (build_inv _ _ _ Hb) as (st & T' & l & r & EN' & _). congruence. }
      destruct (build_plan support p b Hsup Hb) as (_ & B1 & B2 & B3 & B4 & _); [lia|]. rewrite EbN in *.
      unfold padded_length. rewrite Es. cbn [s_pad_left s_pad_right]. lia. }
    split; [exact EL|]. split.
    + destruct (new_Q _ _ _ _ H) as (q1 & q2 & EQ & Hq1 & Hq2). destruct (new_banks _ _ _ _ H _ _ EQ) as (P1 & _).
      pose proof (anden_length _ _ _ HJ Hq1 (anden_list_ok _ _ HJ Hq1)) as L1. rewrite <- P1, map_length in L1.
      intros E. rewrite E in L1. cbn in L1. lia.
    + intros f Hf. destruct (bank_elem _ _ _ _ _ _ Hc Hf) as [Hx Hs].
      assert (Z0 : morlet_raw 1 (Some (f_xi f)) (f_sigma f) 0 = 0) by (apply raw_zero_mean; (lia || lra)).
      split; [exact Z0|]. rewrite EL. unfold divisor. cbn [rsum]. unfold idft_at. cbn [csum]. rewrite Z0.
      rewrite Rplus_0_l. match goal with |- Cmod ?z = 0 => replace z with (RtoC 0) end; [apply Cmod_0|].
      rewrite ?Cmult_0_l, ?Cmult_0_r, ?Cplus_0_l, ?Cplus_0_r. unfold Cdiv. now rewrite ?Cmult_0_l, ?Cmult_0_r.
  - destruct (constructor_instance (fun _ _ => 30%Z) 0 1 1 "array") as [s Hs]; try (intros; lia).
    exists s. split; [intros; lia|]. split; [exact Hs|]. split; [reflexivity|]. cbn. lia.
Qed.
Print Assumptions C111_single_sample_refuted.

(** J = 4, Q = 8, 100 samples. *)
Example C111_instance : exists s, constructed (fun _ _ => 30%Z) (mk_params 4 100 (QInt 8) TNone SNone 2) "array" s 100 /\
  (1 <= List.length (s_psi1 s))%nat /\ forall f, In f (s_psi1 s) -> 0 < divisor (padded_length s 100) f.
Proof.
  destruct (constructor_instance (fun _ _ => 30%Z) 4 100 8 "array") as [s Hs]; try (intros; lia).
  assert (Hc : constructed (fun _ _ => 30%Z) (mk_params 4 100 (QInt 8) TNone SNone 2) "array" s 100).
  { split; [intros; lia|]. split; [exact Hs|]. split; [reflexivity|]. cbn. lia. }
  exists s. split; [exact Hc|]. split.
  - assert (L : (1 <= Z.of_nat (List.length (s_psi1 s)) <= 40)%Z) by (apply (C13_number_of_wavelets _ _ _ _ 8 1 Hs); cbn; (lia || reflexivity)). lia.
  - intros f Hf. now apply (C111_divisor_partial _ _ _ _ _ Hc ltac:(lia) f (or_introl Hf)).
Qed.
