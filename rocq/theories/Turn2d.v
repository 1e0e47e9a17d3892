(** Images turned by a half-turn around their first pixel, and their 2-D coefficients. *)
From Coq Require Import String Reals ZArith List Lia Lra Arith Bool.
From Coquelicot Require Import Coquelicot.
From Verif Require Import Base BaseProofs NdArray NdProofs Backend Utils1dProofs Rows1d ComplexOps Dft Conv1d StackProofs Backend2d Core2d FilterBank2d Frontend2d Images Rows2d
  Construct1d Pad2d Eval2d Dft2 Value2d Conv2d Keys2d Path2d Stability1d Transpose2d.
Import ListNotations.
Local Open Scope nat_scope.

Lemma mod_opp_nat N k : 0 < N -> k < N -> (Z.of_nat ((N - k) mod N) = (- Z.of_nat k) mod Z.of_nat N)%Z.
Proof.
  intros HN Hk. rewrite Nat2Z.inj_mod, Nat2Z.inj_sub by lia. replace (Z.of_nat N - Z.of_nat k)%Z with (- Z.of_nat k + 1 * Z.of_nat N)%Z by ring. apply Z_mod_plus_full.
Qed.
Lemma mod_opp_opp N k : 0 < N -> k < N -> (N - (N - k) mod N) mod N = k.
Proof.
  intros HN Hk. destruct k as [|k]; [rewrite Nat.sub_0_r, Nat.mod_same, Nat.sub_0_r by lia; apply Nat.mod_same; lia|].
  rewrite (Nat.mod_small (N - S k) N) by lia. replace (N - (N - S k)) with (S k) by lia. now apply Nat.mod_small.
Qed.
Lemma idft_at_neg N (f : nat -> C) k : 0 < N -> k < N -> idft_at N f (Z.of_nat ((N - k) mod N)) = idft_at N f (- Z.of_nat k).
Proof.
  intros HN Hk. unfold idft_at. f_equal. apply csum_ext. intros a _. f_equal. apply root_congr; [exact HN|].
  rewrite mod_opp_nat by assumption. now rewrite Zmult_mod_idemp_r.
Qed.
(** A response with real values is that of a filter whose conjugate is the filter turned by a half-turn. *)
Lemma real_idft2 M N w u v : 0 < M -> 0 < N -> real_img M N w -> u < M -> v < N ->
  px N (idft2 M N w) ((M - u) mod M) ((N - v) mod N) = Cconj (px N (idft2 M N w) u v).
Proof.
  intros HM HN Hr Hu Hv. unfold idft2. rewrite !px_img by (assumption || (apply Nat.mod_upper_bound; lia)). unfold idft2_at.
  rewrite idft_at_neg by assumption. rewrite <- idft_at_Cconj by exact HM. apply idft_at_ext. intros a Ha.
  rewrite idft_at_neg by assumption. rewrite <- idft_at_Cconj by exact HN. apply idft_at_ext. intros b Hb. symmetry. apply conj_real. now apply Hr.
Qed.
Lemma turned_index M u a : 0 < M -> a < M ->
  Z.to_nat ((u - Z.of_nat ((M - a) mod M)) mod Z.of_nat M) = (M - Z.to_nat ((- u - Z.of_nat a) mod Z.of_nat M)) mod M.
Proof.
  intros HM Ha. pose proof (Z.mod_pos_bound (- u - Z.of_nat a) (Z.of_nat M) ltac:(lia)). apply Nat2Z.inj. rewrite Z2Nat.id by (apply Z.mod_pos_bound; lia).
  rewrite (mod_opp_nat M a), (mod_opp_nat M (Z.to_nat _)) by lia. rewrite Z2Nat.id by lia. rewrite Zminus_mod_idemp_r.
  replace (- ((- u - Z.of_nat a) mod Z.of_nat M))%Z with (0 - (- u - Z.of_nat a) mod Z.of_nat M)%Z by ring. rewrite Zminus_mod_idemp_r. f_equal. ring.
Qed.
Lemma opposite_conv2 M N x y w u v : 0 < M -> 0 < N -> opposite M N x y -> real_img M N x -> real_img M N w ->
  conv2 M N y (idft2 M N w) u v = Cconj (conv2 M N x (idft2 M N w) (- u) (- v)).
Proof.
  intros HM HN (_ & _ & Ho) Rx Rw. unfold conv2.
  rewrite <- (csum_opposite M (fun a => csum N (fun b => px N y a b * px N (idft2 M N w) (Z.to_nat ((u - Z.of_nat a) mod Z.of_nat M)) (Z.to_nat ((v - Z.of_nat b) mod Z.of_nat N)))%C) HM).
  rewrite csum_conj. apply csum_ext. intros a Ha.
  rewrite <- (csum_opposite N (fun b => px N y ((M - a) mod M) b * px N (idft2 M N w) (Z.to_nat ((u - Z.of_nat ((M - a) mod M)) mod Z.of_nat M)) (Z.to_nat ((v - Z.of_nat b) mod Z.of_nat N)))%C HN).
  rewrite csum_conj. apply csum_ext. intros b Hb. rewrite Cconj_mult. f_equal.
  - rewrite Ho by (apply Nat.mod_upper_bound; lia). rewrite !mod_opp_opp by assumption. symmetry. apply conj_real. now apply Rx.
  - rewrite !turned_index by assumption.
    pose proof (Z.mod_pos_bound (- u - Z.of_nat a) (Z.of_nat M) ltac:(lia)). pose proof (Z.mod_pos_bound (- v - Z.of_nat b) (Z.of_nat N) ltac:(lia)).
    apply real_idft2; try assumption; lia.
Qed.
Lemma grid_neg M r u : 0 < r -> Nat.divide r M -> u < M / r -> ((- Z.of_nat (r * u)) mod Z.of_nat M = Z.of_nat (r * ((M / r - u) mod (M / r))) mod Z.of_nat M)%Z.
Proof.
  intros Hr [c ->] Hu. rewrite Nat.div_mul in * by lia. destruct u as [|u].
  - rewrite Nat.sub_0_r, Nat.mod_same by lia. now rewrite Nat.mul_0_r.
  - rewrite (Nat.mod_small (c - S u) c) by lia. rewrite Nat2Z.inj_mul, (Nat2Z.inj_mul r (c - S u)), (Nat2Z.inj_mul c r), Nat2Z.inj_sub by lia.
    replace (Z.of_nat r * (Z.of_nat c - Z.of_nat (S u)))%Z with (- (Z.of_nat r * Z.of_nat (S u)) + 1 * (Z.of_nat c * Z.of_nat r))%Z by ring. symmetry. apply Z_mod_plus_full.
Qed.
Lemma turned_modulus M N x y w r : 0 < M -> 0 < N -> 0 < r -> Nat.divide r M -> Nat.divide r N -> opposite M N x y -> real_img M N x -> real_img M N w ->
  opposite (M / r) (N / r) (sampled_modulus2 M N x w r) (sampled_modulus2 M N y w r).
Proof.
  intros HM HN Hr DM DN Ho Rx Rw. split; [apply img_length|]. split; [apply img_length|]. intros u v Hu Hv.
  unfold sampled_modulus2. rewrite !px_img by (assumption || (apply Nat.mod_upper_bound; lia)).
  rewrite (opposite_conv2 M N x y w) by assumption. rewrite Cmod_conj. do 2 f_equal. apply conv2_congr; try assumption; now apply grid_neg.
Qed.
(** The low-pass of the turned image is that of the image, turned: samples 1, ..., m - 2 are kept, so that the first one has no counterpart. *)
Definition turned_inside (m n : nat) (x y : list C) : Prop := forall u v, 1 <= u < m -> 1 <= v < n -> px n y u v = px n x (m - u) (n - v).
Lemma turned_lowpass M N x y w r : 0 < M -> 0 < N -> 0 < r -> Nat.divide r M -> Nat.divide r N -> opposite M N x y -> real_img M N x -> real_img M N w ->
  turned_inside (M / r - 2) (N / r - 2) (sampled_lowpass2 M N x w r) (sampled_lowpass2 M N y w r).
Proof.
  intros HM HN Hr DM DN Ho Rx Rw u v Hu Hv. unfold sampled_lowpass2. rewrite !px_img by lia.
  rewrite (opposite_conv2 M N x y w) by assumption. f_equal. rewrite (conv2_congr M N x (idft2 M N w) _ (Z.of_nat (r * (M / r - 2 - u + 1))) _ (Z.of_nat (r * (N / r - 2 - v + 1)))); try assumption.
  - reflexivity.
  - rewrite grid_neg by (assumption || lia). rewrite Nat.mod_small by lia. now replace (M / r - (u + 1)) with (M / r - 2 - u + 1) by lia.
  - rewrite grid_neg by (assumption || lia). rewrite Nat.mod_small by lia. now replace (N / r - (v + 1)) with (N / r - 2 - v + 1) by lia.
Qed.
Lemma real_restrict M N w r : 0 < r -> real_img M N w -> real_img (M / r) (N / r) (restrict2 M N w r).
Proof.
  intros Hr Rw u v Hu Hv. unfold restrict2. rewrite px_img by assumption. assert (B : forall K k, k < K / r -> band K (K / r) k < K).
  { intros K k Hk. unfold band. assert (K / r <= K) by (apply Nat.div_le_upper_bound; nia). destruct (k <? K / r / 2) eqn:E; [apply Nat.ltb_lt in E|]; lia. }
  apply Rw; now apply B.
Qed.

Lemma Ppos k : 0 < P k.
Proof. apply Nat.neq_0_lt_0, Nat.pow_nonzero. lia. Qed.
Lemma Pmul a b : (0 <= a <= b)%Z -> P a * P (b - a) = P b.
Proof. exact (P_mul 1 1 0 Nat.lt_0_1 Nat.lt_0_1 a b). Qed.
Lemma level_pos J K k : 0 < K -> (0 <= k <= J)%Z -> Nat.divide (p2 J) K -> 0 < K / P k.
Proof. exact (lev_pos 1 1 J 0 Nat.lt_0_1 Nat.lt_0_1 K k). Qed.
Lemma level_div K a b : (0 <= a <= b)%Z -> K / P a / P (b - a) = K / P b.
Proof. exact (div_levels2 1 1 0 Nat.lt_0_1 Nat.lt_0_1 K a b). Qed.
Section Coefs.
Variables (M N : nat) (J L : Z).
Hypothesis (HM : 0 < M) (HN : 0 < N) (DM : Nat.divide (p2 J) M) (DN : Nat.divide (p2 J) N).
Lemma phi_real : real_img M N (phi_hat M N J).
Proof. apply real_fft2_real, img_length. Qed.
Lemma psi_real j t : real_img M N (psi_hat M N L j t).
Proof. apply real_fft2_real, morlet_length. Qed.
Lemma lev_divide K a b : (0 <= a <= b)%Z -> (b <= J)%Z -> Nat.divide (p2 J) K -> Nat.divide (P (b - a)) (K / P a).
Proof.
  intros Ha Hb [c Hc]. change (p2 J) with (P J) in Hc. exists (c * P (J - b)). rewrite Hc, <- (Pmul b J) by lia. rewrite <- (Pmul a b) by lia.
  replace (c * (P a * P (b - a) * P (J - b))) with (c * P (J - b) * P (b - a) * P a) by ring. apply Nat.div_mul. pose proof (Ppos a). lia.
Qed.
Lemma lev_divide0 K b : (0 <= b <= J)%Z -> Nat.divide (p2 J) K -> Nat.divide (P b) K.
Proof. intros Hb HK. pose proof (lev_divide K 0 b ltac:(lia) ltac:(lia) HK) as H. change (P 0) with 1 in H. now rewrite Z.sub_0_r, Nat.div_1_r in H. Qed.
Lemma value2_turned js ts x y : label2 J L js ts -> (0 <= J)%Z -> opposite M N x y -> real_img M N x ->
  turned_inside (M / P J - 2) (N / P J - 2) (value2 M N J L js ts x) (value2 M N J L js ts y).
Proof.
  intros Hl HJ Ho Hr.
  destruct Hl as [[-> ->]|[(j & t & -> & -> & Hj & Ht)|(j1 & t1 & j2 & t2 & -> & -> & Hj & Hj2 & Ht1 & Ht2)]]; cbn [value2].
  - apply turned_lowpass; try assumption; [apply Ppos|apply phi_real].
  - unfold S1_val. rewrite <- (level_div M j J), <- (level_div N j J) by lia. apply turned_lowpass; try (apply (level_pos J); (assumption || lia)); try (apply lev_divide; (assumption || lia)).
    + apply Ppos.
    + unfold U1_val. apply turned_modulus; try assumption; try apply Ppos; try apply psi_real; apply lev_divide0; (assumption || lia).
    + apply modulus_real.
    + apply real_restrict; [apply Ppos|apply phi_real].
  - assert (O1 : opposite (M / P j1) (N / P j1) (U1_val M N L j1 t1 x) (U1_val M N L j1 t1 y))
      by (unfold U1_val; apply turned_modulus; try assumption; try apply Ppos; try apply psi_real; apply lev_divide0; (assumption || lia)).
    unfold S2_val. rewrite <- (level_div M j2 J), <- (level_div N j2 J) by lia. apply turned_lowpass; try (apply (level_pos J); (assumption || lia)); try (apply lev_divide; (assumption || lia)).
    + apply Ppos.
    + unfold U2_val. rewrite <- (level_div M j1 j2), <- (level_div N j1 j2) by lia. apply turned_modulus; try (apply (level_pos J); (assumption || lia)); try (apply lev_divide; (assumption || lia)).
      * apply Ppos.
      * exact O1.
      * apply modulus_real.
      * apply real_restrict; [apply Ppos|apply psi_real].
    + unfold U2_val. rewrite <- (level_div M j1 j2), <- (level_div N j1 j2) by lia. apply modulus_real.
    + apply real_restrict; [apply Ppos|apply phi_real].
Qed.
End Coefs.
