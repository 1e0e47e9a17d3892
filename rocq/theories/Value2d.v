(** Values of the 2-D scattering coefficients, and properties of the 2-D filters. *)
From Coq Require Import String Reals ZArith List Lia Lra Arith Bool.
From Coquelicot Require Import Coquelicot.
From Verif Require Import Base BaseProofs NdArray NdProofs Backend Utils1dProofs FactoryProofs Rows1d ComplexOps Dft Conv1d StackProofs Backend2d Core2d FilterBank2d Frontend2d Images Rows2d Construct1d Pad2d Eval2d Dft2.
Import ListNotations.
Local Open Scope nat_scope.
Local Ltac Zify.zify_post_hook ::= Z.div_mod_to_equations.

(** ** What the coefficients should be *)
(** The responses of the filters on the grid of M x N frequencies. *)
Section Spec.
Variables (M N : nat) (J L : Z).
Definition phi_hat : list C := real_fft2 M N (gabor_2d M N (8 / 10 * powerRZ 2 (J - 1)) 0 0 1).
Definition psi_hat (j theta : Z) : list C :=
  real_fft2 M N (morlet_2d M N (8 / 10 * IZR (2 ^ j)) (IZR (Z.quot (L - 2) 2 - theta) * PI / IZR L) (3 / 4 * PI / IZR (2 ^ j)) (4 / IZR L)).
(** Frequency [k] of a grid of [m] frequencies, on a grid of [M] frequencies: the same signed frequency. *)
Definition band (M m k : nat) : nat := if k <? m / 2 then k else k + (M - m).
(** A response restricted to the low frequencies, on a grid [r] times smaller. *)
Definition restrict2 (w : list C) (r : nat) : list C :=
  img (M / r) (N / r) (fun k l => px N w (band M (M / r) k) (band N (N / r) l)).
Definition P (k : Z) : nat := 2 ^ Z.to_nat k.

(** Coefficients of a padded image [x]: |x * psi1| every 2**j1 pixels, |U1 * psi2| every 2**j2 pixels, low-pass every 2**J pixels. *)
Definition S0_val (x : list C) : list C := sampled_lowpass2 M N x phi_hat (P J).
Definition U1_val (j1 t1 : Z) (x : list C) : list C := sampled_modulus2 M N x (psi_hat j1 t1) (P j1).
Definition S1_val (j1 t1 : Z) (x : list C) : list C :=
  sampled_lowpass2 (M / P j1) (N / P j1) (U1_val j1 t1 x) (restrict2 phi_hat (P j1)) (P (J - j1)).
Definition U2_val (j1 t1 j2 t2 : Z) (x : list C) : list C :=
  sampled_modulus2 (M / P j1) (N / P j1) (U1_val j1 t1 x) (restrict2 (psi_hat j2 t2) (P j1)) (P (j2 - j1)).
Definition S2_val (j1 t1 j2 t2 : Z) (x : list C) : list C :=
  sampled_lowpass2 (M / P j2) (N / P j2) (U2_val j1 t1 j2 t2 x) (restrict2 phi_hat (P j2)) (P (J - j2)).
End Spec.

(** ** Tabulated levels *)
Lemma masked_spec M r u : Nat.divide (2 ^ (r + 1)) M -> masked M r u = (M / 2 ^ r / 2 <=? u) && (u <? M / 2 ^ r / 2 + (M - M / 2 ^ r)).
Proof.
  intros [c Hc]. assert (Hp : 2 ^ r <> 0) by (apply Nat.pow_nonzero; lia). rewrite Nat.pow_add_r, Nat.pow_1_r in Hc.
  assert (E1 : M / 2 ^ r = 2 * c) by (rewrite Hc; replace (c * (2 ^ r * 2)) with (2 * c * 2 ^ r) by lia; now apply Nat.div_mul).
  unfold masked. rewrite E1. replace (2 * c / 2) with c by (rewrite (Nat.mul_comm 2 c); symmetry; now apply Nat.div_mul).
  replace (M / 2 ^ (r + 1)) with c by (rewrite Nat.pow_add_r, Nat.pow_1_r, Hc; symmetry; apply Nat.div_mul; lia).
  replace (M * (2 ^ r - 1) / 2 ^ r) with (M - 2 * c); [reflexivity|].
  apply (Nat.div_unique _ _ _ 0); [lia|]. rewrite Hc. destruct (2 ^ r) as [|q]; [lia|]. nia.
Qed.
Lemma band_lt M m k : m <= M -> k < m -> band M m k < M.
Proof. intros. unfold band. destruct (Nat.ltb_spec k (m / 2)); lia. Qed.
(** Exactly one copy of every frequency is outside the mask. *)
Lemma one_copy M r k i : Nat.divide (2 ^ (r + 1)) M -> 0 < M -> k < M / 2 ^ r -> i < 2 ^ r ->
  masked M r (k + i * (M / 2 ^ r)) = negb (k + i * (M / 2 ^ r) =? band M (M / 2 ^ r) k).
Proof.
  intros Hd HM Hk Hi. rewrite masked_spec by exact Hd. destruct Hd as [c Hc]. assert (Hp : 2 ^ r <> 0) by (apply Nat.pow_nonzero; lia).
  rewrite Nat.pow_add_r, Nat.pow_1_r in Hc.
  assert (E1 : M / 2 ^ r = 2 * c) by (rewrite Hc; replace (c * (2 ^ r * 2)) with (2 * c * 2 ^ r) by lia; now apply Nat.div_mul).
  rewrite E1 in *. unfold band. assert (E2 : 2 * c / 2 = c) by (rewrite (Nat.mul_comm 2 c); now apply Nat.div_mul). rewrite E2.
  assert (EM : M = 2 ^ r * (2 * c)) by lia. clear Hc E1 E2. set (q := 2 ^ r) in *.
  assert (Hi0 : i = 0 \/ 1 <= i) by lia. assert (Hiq : i = q - 1 \/ i <= q - 2) by lia.
  destruct (Nat.ltb_spec k c);
  [destruct (Nat.eqb_spec (k + i * (2 * c)) k)|destruct (Nat.eqb_spec (k + i * (2 * c)) (k + (M - 2 * c)))];
  destruct (Nat.leb_spec c (k + i * (2 * c))); destruct (Nat.ltb_spec (k + i * (2 * c)) (c + (M - 2 * c))); cbn [andb negb]; try reflexivity; exfalso; nia.
Qed.
Lemma pow_divide_pow a b n : a <= b -> Nat.divide (2 ^ b) n -> Nat.divide (2 ^ a) n.
Proof. intros Hab [c ->]. exists (c * 2 ^ (b - a)). replace b with (a + (b - a)) at 1 by lia. rewrite Nat.pow_add_r. lia. Qed.
Lemma px_periodize2 M N x r k l : Nat.divide (2 ^ (r + 1)) M -> Nat.divide (2 ^ (r + 1)) N -> 0 < M -> 0 < N -> k < M / 2 ^ r -> l < N / 2 ^ r ->
  px (N / 2 ^ r) (periodize2 cops M N x r) k l = px N x (band M (M / 2 ^ r) k) (band N (N / 2 ^ r) l).
Proof.
  intros DM DN HM HN Hk Hl. unfold periodize2. rewrite px_img by assumption. rewrite osum_csum.
  assert (Hp : 2 ^ r <> 0) by (apply Nat.pow_nonzero; lia).
  assert (EM : M = 2 ^ r * (M / 2 ^ r)) by (apply Nat.div_exact; [exact Hp|]; apply Nat.mod_divide; [exact Hp|]; apply (pow_divide_pow r (r + 1)); [lia|exact DM]).
  assert (EN : N = 2 ^ r * (N / 2 ^ r)) by (apply Nat.div_exact; [exact Hp|]; apply Nat.mod_divide; [exact Hp|]; apply (pow_divide_pow r (r + 1)); [lia|exact DN]).
  set (m := M / 2 ^ r) in *. set (n := N / 2 ^ r) in *.
  assert (C : forall K k, 0 < K -> Nat.divide (2 ^ (r + 1)) K -> K = 2 ^ r * (K / 2 ^ r) -> k < K / 2 ^ r -> exists i, i < 2 ^ r /\ k + i * (K / 2 ^ r) = band K (K / 2 ^ r) k /\
      forall i', i' < 2 ^ r -> i' <> i -> masked K r (k + i' * (K / 2 ^ r)) = true).
  { intros K k' HK DK EK Hk'. set (i := if k' <? K / 2 ^ r / 2 then 0 else 2 ^ r - 1). assert (Hb : k' + i * (K / 2 ^ r) = band K (K / 2 ^ r) k').
    { unfold i, band. destruct (k' <? K / 2 ^ r / 2); [lia|]. nia. }
    exists i. split; [unfold i; destruct (k' <? _); lia|]. split; [exact Hb|]. intros i' Hi' Hne. rewrite one_copy by assumption.
    destruct (Nat.eqb_spec (k' + i' * (K / 2 ^ r)) (band K (K / 2 ^ r) k')) as [E|E]; [|reflexivity]. exfalso. apply Hne. rewrite <- Hb in E. nia. }
  destruct (C M k HM DM EM Hk) as (i & Hi & Ei & Ui). destruct (C N l HN DN EN Hl) as (j & Hj & Ej & Uj). fold m in Ei, Ui. fold n in Ej, Uj.
  rewrite (csum_single (2 ^ r) _ i Hi).
  - rewrite osum_csum, (csum_single (2 ^ r) _ j Hj).
    + fold (px N). change (iat (o_zero cops) N) with (px N). rewrite px_img by nia. rewrite Ei, Ej.
      assert (A : masked M r (band M m k) = false) by (rewrite <- Ei; unfold m; rewrite one_copy by assumption; fold m; now rewrite Ei, Nat.eqb_refl).
      assert (B : masked N r (band N n l) = false) by (rewrite <- Ej; unfold n; rewrite one_copy by assumption; fold n; now rewrite Ej, Nat.eqb_refl).
      rewrite A, B. reflexivity.
    + intros j' Hj' Hne. change (iat (o_zero cops) N) with (px N). rewrite px_img by nia. rewrite Uj by assumption. now rewrite orb_true_r.
  - intros i' Hi' Hne. rewrite osum_csum. apply csum_0. intros j' Hj'. change (iat (o_zero cops) N) with (px N). rewrite px_img by nia. now rewrite Ui by assumption.
Qed.
Lemma periodize2_restrict M N x r : Nat.divide (2 ^ (r + 1)) M -> Nat.divide (2 ^ (r + 1)) N -> 0 < M -> 0 < N ->
  periodize2 cops M N x r = restrict2 M N x (2 ^ r).
Proof.
  intros. apply (image_ext (RtoC 0) (M / 2 ^ r) (N / 2 ^ r)); [apply periodize2_length|apply img_length|].
  intros k l Hk Hl. unfold restrict2. rewrite iat_img by assumption. now apply px_periodize2.
Qed.
Lemma band_id M k : k < M -> band M M k = k.
Proof. intros. unfold band. rewrite Nat.sub_diag, Nat.add_0_r. now destruct (k <? M / 2). Qed.
Lemma restrict2_1 M N x : List.length x = M * N -> restrict2 M N x 1 = x.
Proof.
  intros H. unfold restrict2. rewrite !Nat.div_1_r. etransitivity; [|exact (img_iat (RtoC 0) M N x H)]. apply img_ext. intros u v Hu Hv. now rewrite !band_id.
Qed.

(** ** The coefficients *)
Lemma real_fft2_length M N x : List.length x = M * N -> List.length (real_fft2 M N x) = M * N.
Proof. intros H. unfold real_fft2. rewrite map_length. apply (sep2_length cops); [apply dft_length|exact H]. Qed.
Lemma morlet_length M N s t x sl : List.length (morlet_2d M N s t x sl) = M * N.
Proof. unfold morlet_2d. rewrite map_length, combine_length. unfold gabor_2d. rewrite !img_length. lia. Qed.
Lemma phi_hat_length M N J : List.length (phi_hat M N J) = M * N.
Proof. apply real_fft2_length, img_length. Qed.
Lemma psi_hat_length M N L j t : List.length (psi_hat M N L j t) = M * N.
Proof. apply real_fft2_length, morlet_length. Qed.
Section Vals.
Variables (M N : nat) (J L : Z).
Hypothesis (HJ : (1 <= J)%Z) (HM : 0 < M) (HN : 0 < N) (DM : Nat.divide (p2 J) M) (DN : Nat.divide (p2 J) N).
Notation phi := (fst (filter_bank M N J L)).
Notation psi := (snd (filter_bank M N J L)).
Lemma div_levels l : (0 <= l < J)%Z -> Nat.divide (2 ^ (Z.to_nat l + 1)) M /\ Nat.divide (2 ^ (Z.to_nat l + 1)) N.
Proof. intros Hl. unfold p2 in *. split; apply (pow_divide_pow _ (Z.to_nat J)); try assumption; lia. Qed.
Lemma lev_phi l : (0 <= l < J)%Z -> lev2 phi l = restrict2 M N (phi_hat M N J) (P l).
Proof.
  intros Hl. unfold lev2, filter_bank. cbn [fst phi_2d g_levels]. rewrite nth_error_map, zrange0_nth by lia. cbn [option_map level2 nd_data].
  destruct (div_levels l Hl). now apply periodize2_restrict.
Qed.
Lemma lev_psi j t l : (0 <= j < J)%Z -> (0 <= l < Z.min (j + 1) (Z.max (J - 1) 1))%Z -> lev2 (psi_2d M N J L j t) l = restrict2 M N (psi_hat M N L j t) (P l).
Proof.
  intros Hj Hl. unfold lev2. cbn [psi_2d g_levels]. rewrite nth_error_map, zrange0_nth by lia. cbn [option_map level2 nd_data].
  destruct (div_levels l ltac:(lia)). now apply periodize2_restrict.
Qed.
Lemma lev_psi0 j t : (0 <= j < J)%Z -> lev2 (psi_2d M N J L j t) 0 = psi_hat M N L j t.
Proof. intros Hj. rewrite lev_psi by lia. change (P 0) with 1. apply restrict2_1, psi_hat_length. Qed.
Notation rdy := (filter_bank_ready M N J L HJ HM HN DM DN).
Lemma in_bank j t : (0 <= j < J)%Z -> (0 <= t < L)%Z -> In (psi_2d M N J L j t) psi.
Proof. intros Hj Ht. apply filter_bank_In. eauto. Qed.
Section Im.
Variable (x : list C).
Hypothesis (Hx : List.length x = M * N).
Lemma S0_value : S0_img cops J phi M N x = S0_val M N J x.
Proof.
  unfold S0_img, S0_val. rewrite low_spec; try assumption; [|lia|].
  - rewrite lev_phi by lia. change (P 0) with 1. rewrite restrict2_1 by apply phi_hat_length. reflexivity.
  - pose proof (rd_phi _ _ _ _ _ rdy 0 ltac:(lia)) as H. now rewrite !div_p2_0 in H.
Qed.
Lemma U1_value j t : (0 <= j < J)%Z -> (0 <= t < L)%Z -> U1_img cops M N (psi_2d M N J L j t) x = U1_val M N L j t x.
Proof.
  intros Hj Ht. unfold U1_img, U1_val. rewrite env_spec; try assumption.
  - rewrite lev_psi0 by lia. reflexivity.
  - cbn [psi_2d g_j]. lia.
  - apply (rd_psi0 _ _ _ _ _ rdy). now apply in_bank.
  - cbn [psi_2d g_j]. apply (divide_le _ J); [lia|assumption].
  - cbn [psi_2d g_j]. apply (divide_le _ J); [lia|assumption].
Qed.
Lemma U1_val_length j t : List.length (U1_val M N L j t x) = (M / p2 j) * (N / p2 j).
Proof. apply img_length. Qed.
Lemma S1_value j t : (0 <= j < J)%Z -> (0 <= t < L)%Z -> S1_img cops J phi M N (psi_2d M N J L j t) x = S1_val M N J L j t x.
Proof.
  intros Hj Ht. unfold S1_img, S1_val. rewrite U1_value by assumption. cbn [psi_2d g_j].
  destruct (level_pos J _ _ M N rdy j ltac:(lia)) as [P1 P2].
  rewrite low_spec; try assumption; [now rewrite lev_phi by lia|lia|apply (rd_phi _ _ _ _ _ rdy); lia| | |apply U1_val_length];
  apply divide_div; try assumption; lia.
Qed.
Lemma U2_value j1 t1 j2 t2 : (0 <= j1 < j2)%Z -> (j2 < J)%Z -> (0 <= t1 < L)%Z -> (0 <= t2 < L)%Z ->
  U2_img cops M N (psi_2d M N J L j1 t1) (psi_2d M N J L j2 t2) x = U2_val M N L j1 t1 j2 t2 x.
Proof.
  intros H1 H2 Ht1 Ht2. unfold U2_img, U2_val. rewrite U1_value by lia. cbn [psi_2d g_j].
  destruct (level_pos J _ _ M N rdy j1 ltac:(lia)) as [P1 P2].
  change (mk_filter2 _ j2 t2) with (psi_2d M N J L j2 t2).
  rewrite env_spec; try assumption; [now rewrite lev_psi by lia|lia|apply (rd_psi _ _ _ _ _ rdy); [now apply in_bank; lia|cbn; lia]| | |apply U1_val_length];
  apply divide_div; try lia; apply (divide_le _ J); try assumption; lia.
Qed.
Lemma U2_val_length j1 t1 j2 t2 : (0 <= j1 < j2)%Z -> List.length (U2_val M N L j1 t1 j2 t2 x) = (M / p2 j2) * (N / p2 j2).
Proof.
  intros H. unfold U2_val, sampled_modulus2. rewrite img_length. change P with p2. rewrite !div_div_p2 by lia. now replace (j1 + (j2 - j1))%Z with j2 by lia.
Qed.
Lemma S2_value j1 t1 j2 t2 : (0 <= j1 < j2)%Z -> (j2 < J)%Z -> (0 <= t1 < L)%Z -> (0 <= t2 < L)%Z ->
  S2_img cops J phi M N (psi_2d M N J L j1 t1) (psi_2d M N J L j2 t2) x = S2_val M N J L j1 t1 j2 t2 x.
Proof.
  intros H1 H2 Ht1 Ht2. unfold S2_img, S2_val. rewrite U2_value by lia. cbn [psi_2d g_j].
  destruct (level_pos J _ _ M N rdy j2 ltac:(lia)) as [P1 P2].
  rewrite low_spec; try assumption; [now rewrite lev_phi by lia|lia|apply (rd_phi _ _ _ _ _ rdy); lia| | |apply U2_val_length; lia];
  apply divide_div; try assumption; lia.
Qed.
End Im.
End Vals.
