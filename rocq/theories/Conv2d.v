(** Circular convolution of images: scaling, translation, adding a constant; the 2-D wavelets have zero mean. *)
From Coq Require Import String Reals ZArith List Lia Lra Arith Bool.
From Coquelicot Require Import Coquelicot.
From Verif Require Import Base NdArray NdProofs Backend Rows1d ComplexOps Dft Conv1d Backend2d Core2d FilterBank2d Images Rows2d Dft2 Value2d.
Import ListNotations.
Local Open Scope C_scope.

(** ** Circular translation *)
Definition rot2 (M N : nat) (d e : Z) (x : list C) : list C :=
  img M N (fun u v => px N x (Z.to_nat ((Z.of_nat u - d) mod Z.of_nat M)) (Z.to_nat ((Z.of_nat v - e) mod Z.of_nat N))).
Lemma conv2_congr M N x h u u' v v' : (0 < M)%nat -> (0 < N)%nat -> (u mod Z.of_nat M = u' mod Z.of_nat M)%Z -> (v mod Z.of_nat N = v' mod Z.of_nat N)%Z ->
  conv2 M N x h u v = conv2 M N x h u' v'.
Proof.
  intros HM HN Hu Hv. unfold conv2. apply csum_ext. intros a _. apply csum_ext. intros b _. f_equal.
  rewrite (Zminus_mod u), Hu, <- Zminus_mod, (Zminus_mod v), Hv, <- Zminus_mod. reflexivity.
Qed.
Lemma conv2_rot M N d e x h u v : (0 < M)%nat -> (0 < N)%nat -> conv2 M N (rot2 M N d e x) h u v = conv2 M N x h (u - d) (v - e).
Proof.
  intros HM HN. unfold conv2.
  pose (G := fun a b : Z => px N x (Z.to_nat ((a - d) mod Z.of_nat M)) (Z.to_nat ((b - e) mod Z.of_nat N)) *
      px N h (Z.to_nat ((u - a) mod Z.of_nat M)) (Z.to_nat ((v - b) mod Z.of_nat N))).
  rewrite (csum_ext M _ (fun a => csum N (fun b => G (Z.of_nat a) (Z.of_nat b)))).
  2:{ intros a Ha. apply csum_ext. intros b Hb. unfold rot2. now rewrite px_img. }
  rewrite <- (csum_shift M HM (fun a => csum N (fun b => G a (Z.of_nat b))) d).
  2:{ intros a a' Ha. apply csum_ext. intros b _. unfold G. rewrite (Zminus_mod a), Ha, <- Zminus_mod, (Zminus_mod u a), Ha, <- Zminus_mod. reflexivity. }
  apply csum_ext. intros a Ha. rewrite <- (csum_shift N HN (fun b => G (Z.of_nat a + d)%Z b) e).
  2:{ intros b b' Hb. unfold G. rewrite (Zminus_mod b), Hb, <- Zminus_mod, (Zminus_mod v b), Hb, <- Zminus_mod. reflexivity. }
  apply csum_ext. intros b Hb. unfold G. f_equal.
  - replace (Z.of_nat a + d - d)%Z with (Z.of_nat a) by lia. replace (Z.of_nat b + e - e)%Z with (Z.of_nat b) by lia. rewrite !Z.mod_small by lia. now rewrite !Nat2Z.id.
  - do 3 f_equal; lia.
Qed.
Lemma modulus2_rot M N d e x w r : (0 < r)%nat -> (0 < M)%nat -> (0 < N)%nat -> Nat.divide r M -> Nat.divide r N ->
  sampled_modulus2 M N (rot2 M N (Z.of_nat r * d) (Z.of_nat r * e) x) w r = rot2 (M / r) (N / r) d e (sampled_modulus2 M N x w r).
Proof.
  intros Hr HM HN [m Em] [n En].
  assert (Dm : (M / r = m)%nat) by (rewrite Em; apply Nat.div_mul; lia). assert (Dn : (N / r = n)%nat) by (rewrite En; apply Nat.div_mul; lia).
  unfold rot2 at 2. unfold sampled_modulus2 at 1. rewrite Dm, Dn. apply img_ext. intros u v Hu Hv. rewrite conv2_rot by assumption.
  unfold sampled_modulus2. rewrite Dm, Dn.
  pose proof (Z.mod_pos_bound (Z.of_nat u - d) (Z.of_nat m)). pose proof (Z.mod_pos_bound (Z.of_nat v - e) (Z.of_nat n)).
  rewrite px_img by lia. do 2 f_equal. apply conv2_congr; try assumption.
  - rewrite !Nat2Z.inj_mul, Z2Nat.id by lia. rewrite Em, !Nat2Z.inj_mul, (Z.mul_comm (Z.of_nat m)).
    rewrite <- Z.mul_sub_distr_l, !Zmult_mod_distr_l. now rewrite Z.mod_mod by lia.
  - rewrite !Nat2Z.inj_mul, Z2Nat.id by lia. rewrite En, !Nat2Z.inj_mul, (Z.mul_comm (Z.of_nat n)).
    rewrite <- Z.mul_sub_distr_l, !Zmult_mod_distr_l. now rewrite Z.mod_mod by lia.
Qed.
(** Low-pass samples that remain inside. *)
Lemma lowpass2_rot M N d e x w r (u v : nat) : (0 < M)%nat -> (0 < N)%nat -> (u < M / r - 2)%nat -> (v < N / r - 2)%nat ->
  (0 <= Z.of_nat u - d < Z.of_nat (M / r - 2))%Z -> (0 <= Z.of_nat v - e < Z.of_nat (N / r - 2))%Z ->
  px (N / r - 2) (sampled_lowpass2 M N (rot2 M N (Z.of_nat r * d) (Z.of_nat r * e) x) w r) u v =
  px (N / r - 2) (sampled_lowpass2 M N x w r) (Z.to_nat (Z.of_nat u - d)) (Z.to_nat (Z.of_nat v - e)).
Proof.
  intros HM HN Hu Hv Hud Hve. unfold sampled_lowpass2. rewrite !px_img by lia. do 2 f_equal. rewrite conv2_rot by assumption. f_equal; rewrite !Nat2Z.inj_mul, !Nat2Z.inj_add, Z2Nat.id by lia; ring.
Qed.

(** ** Scaling *)
Lemma conv2_scal M N c x h u v : length x = (M * N)%nat -> conv2 M N (map (Cmult c) x) h u v = c * conv2 M N x h u v.
Proof.
  intros Hx. unfold conv2. rewrite <- csum_scal. apply csum_ext. intros a Ha. rewrite <- csum_scal. apply csum_ext. intros b Hb.
  unfold px at 1. rewrite (iat_map (Cmult c) (RtoC 0) (RtoC 0) M) by assumption. fold (px N x a b). ring.
Qed.
Lemma img_map {A B} (g : A -> B) M N f : map g (img M N f) = img M N (fun u v => g (f u v)).
Proof. unfold img. now rewrite map_map. Qed.
Lemma modulus2_scal M N c x w r : length x = (M * N)%nat ->
  sampled_modulus2 M N (map (Cmult (RtoC c)) x) w r = map (Cmult (RtoC (Rabs c))) (sampled_modulus2 M N x w r).
Proof.
  intros Hx. unfold sampled_modulus2. rewrite img_map. apply img_ext. intros u v _ _. rewrite conv2_scal by exact Hx.
  rewrite Cmod_mult, Cmod_R, RtoC_mult. reflexivity.
Qed.
Lemma lowpass2_scal M N c x w r : length x = (M * N)%nat ->
  sampled_lowpass2 M N (map (Cmult (RtoC c)) x) w r = map (Cmult (RtoC c)) (sampled_lowpass2 M N x w r).
Proof.
  intros Hx. unfold sampled_lowpass2. rewrite img_map. apply img_ext. intros u v _ _. rewrite conv2_scal by exact Hx.
  rewrite Re_scal, RtoC_mult. reflexivity.
Qed.

(** ** Adding a constant *)
Lemma csum_reflect_Z N (g : nat -> C) n : (0 < N)%nat -> csum N (fun m => g (Z.to_nat ((n - Z.of_nat m) mod Z.of_nat N))) = csum N g.
Proof.
  intros HN. pose (h := map g (seq 0 N)). rewrite (csum_ext N g (at_ h)) by (intros i Hi; unfold h; now rewrite at_map_seq).
  rewrite <- (csum_reflect_mod N h n HN). apply csum_ext. intros m _. unfold h. rewrite at_map_seq; [reflexivity|].
  pose proof (Z.mod_pos_bound (n - Z.of_nat m) (Z.of_nat N)). lia.
Qed.
Lemma csum_idft_at N (w : nat -> C) : (0 < N)%nat -> csum N (fun n => idft_at N w (Z.of_nat n)) = w 0%nat.
Proof.
  intros H. rewrite <- (dft_idft N H w 0 H). unfold dft_at. apply csum_ext. intros n Hn.
  replace (- (Z.of_nat 0 * Z.of_nat n))%Z with 0%Z by lia. rewrite root_0 by exact H. ring.
Qed.
Lemma sum_idft2 M N w : (0 < M)%nat -> (0 < N)%nat -> csum M (fun a => csum N (fun b => px N (idft2 M N w) a b)) = px N w 0 0.
Proof.
  intros HM HN. unfold idft2.
  rewrite (csum_ext M _ (fun a => csum N (fun b => idft2_at M N (px N w) (Z.of_nat a) (Z.of_nat b)))).
  2:{ intros a Ha. apply csum_ext. intros b Hb. now rewrite px_img. }
  rewrite csum_swap. unfold idft2_at. rewrite (csum_ext N _ (fun b => idft_at N (fun b => px N w 0 b) (Z.of_nat b))).
  - now apply csum_idft_at.
  - intros b Hb. now apply (csum_idft_at M (fun a => idft_at N (fun b0 => px N w a b0) (Z.of_nat b))).
Qed.
Lemma conv2_add_const M N c x w u v : (0 < M)%nat -> (0 < N)%nat -> length x = (M * N)%nat ->
  conv2 M N (map (Cplus c) x) (idft2 M N w) u v = conv2 M N x (idft2 M N w) u v + c * px N w 0 0.
Proof.
  intros HM HN Hx. unfold conv2. rewrite <- (sum_idft2 M N w HM HN).
  set (h := idft2 M N w).
  rewrite <- (csum_reflect_Z M (fun a => csum N (fun b => px N h a b)) u HM). rewrite <- csum_scal, <- csum_plus. apply csum_ext. intros a Ha.
  rewrite <- (csum_reflect_Z N (fun b => px N h (Z.to_nat ((u - Z.of_nat a) mod Z.of_nat M)) b) v HN). rewrite <- csum_scal, <- csum_plus. apply csum_ext. intros b Hb.
  unfold px at 1. rewrite (iat_map (Cplus c) (RtoC 0) (RtoC 0) M) by assumption. fold (px N x a b). ring.
Qed.
Lemma modulus2_add_const M N c x w r : (0 < M)%nat -> (0 < N)%nat -> length x = (M * N)%nat -> px N w 0 0 = 0 ->
  sampled_modulus2 M N (map (Cplus c) x) w r = sampled_modulus2 M N x w r.
Proof.
  intros HM HN Hx Hw. unfold sampled_modulus2. apply img_ext. intros u v _ _. rewrite conv2_add_const by assumption. rewrite Hw, Cmult_0_r, Cplus_0_r. reflexivity.
Qed.
Lemma conv2_0 M N x h u v : (forall a b, (a < M)%nat -> (b < N)%nat -> px N x a b = 0) -> conv2 M N x h u v = 0.
Proof. intros H. unfold conv2. apply csum_0. intros a Ha. apply csum_0. intros b Hb. rewrite H by assumption. ring. Qed.

(** ** The wavelets have zero mean *)
Lemma osum_px M N x : length x = (M * N)%nat -> osum cops x = csum M (fun a => csum N (fun b => px N x a b)).
Proof. intros Hx. rewrite osum_at, Hx, csum_mul. apply csum_ext. intros a _. apply csum_ext. intros b _. unfold at_, px, iat. reflexivity. Qed.
Lemma dft2_at_0 M N x : (0 < M)%nat -> (0 < N)%nat -> dft2_at M N x 0 0 = csum M (fun a => csum N (fun b => x a b)).
Proof.
  intros HM HN. unfold dft2_at, dft_at. apply csum_ext. intros a _. rewrite Z.mul_0_l, Z.opp_0, root_0, Cmult_1_r by exact HM.
  apply csum_ext. intros b _. rewrite Z.mul_0_l, Z.opp_0, root_0, Cmult_1_r by exact HN. reflexivity.
Qed.
Lemma real_fft2_0 M N x : (0 < M)%nat -> (0 < N)%nat -> length x = (M * N)%nat -> px N (real_fft2 M N x) 0 0 = RtoC (Re (osum cops x)).
Proof.
  intros HM HN Hx. unfold px, real_fft2. rewrite (iat_map (fun c => RtoC (Re c)) (RtoC 0) (RtoC 0) M); try assumption.
  2:{ apply (sep2_length cops); [apply dft_length|exact Hx]. }
  do 2 f_equal. change (iat (RtoC 0) N (sep2 cops dft M N x) 0 0) with (px N (sep2 cops dft M N x) 0 0). rewrite px_dft2 by assumption.
  cbn [Z.of_nat]. rewrite dft2_at_0 by assumption. symmetry. now apply osum_px.
Qed.
(** The Gabor filter of frequency zero is positive. *)
Definition pos_real (z : C) : Prop := snd z = 0%R /\ (0 < fst z)%R.
Lemma pos_plus a b : pos_real a -> pos_real b -> pos_real (a + b).
Proof. intros [A1 A2] [B1 B2]. split; cbn; lra. Qed.
Lemma gabor_term_pos s t sl xx yy : pos_real (gabor_term s t 0 sl xx yy).
Proof.
  unfold gabor_term. destruct (curv s t sl) as [[c00 c01] [c10 c11]]. replace (xx * 0 * cos t + yy * 0 * sin t)%R with 0%R by ring.
  rewrite cis_0, Cmult_1_r. split; [reflexivity|]. cbn [fst RtoC]. apply exp_pos.
Qed.
Lemma fold_pos (l : list C) : l <> [] -> (forall z, In z l -> pos_real z) -> pos_real (fold_right Cplus 0 l).
Proof.
  induction l as [|a l IH]; intros Hne H; [congruence|]. cbn [fold_right]. destruct l as [|b l].
  - cbn [fold_right]. rewrite Cplus_0_r. apply H. now left.
  - apply pos_plus; [apply H; now left|]. apply IH; [discriminate|]. intros z Hz. apply H. now right.
Qed.
Lemma gabor_pos M N s t sl z : (0 < s)%R -> (0 < sl)%R -> In z (gabor_2d M N s t 0 sl) -> pos_real z.
Proof.
  intros Hs Hsl Hz. unfold gabor_2d, img in Hz. apply in_map_iff in Hz as (q & <- & _).
  assert (Hn : (0 < 2 * (31415 / 10000) * s * s / sl)%R).
  { apply Rmult_lt_0_compat; [|now apply Rinv_0_lt_compat]. repeat apply Rmult_lt_0_compat; lra. }
  match goal with |- pos_real (?A / _) => assert (HA : pos_real A) end.
  { apply fold_pos; [discriminate|]. intros z Hz. apply in_map_iff in Hz as (ex & <- & _). apply fold_pos; [discriminate|].
    intros z Hz. apply in_map_iff in Hz as (ey & <- & _). apply gabor_term_pos. }
  destruct HA as [A1 A2]. match goal with |- pos_real (?A / RtoC ?r) => destruct A as [a b]; replace ((a, b) / RtoC r) with ((a / r, b / r)%R : C) end.
  - cbn in A1, A2. subst b. split; cbn; [unfold Rdiv; ring|]. now apply Rdiv_lt_0_compat.
  - apply C_ext; cbn; field; lra.
Qed.
Lemma gabor_sum_pos M N s t sl : (0 < M)%nat -> (0 < N)%nat -> (0 < s)%R -> (0 < sl)%R -> pos_real (osum cops (gabor_2d M N s t 0 sl)).
Proof.
  intros HM HN Hs Hsl. apply fold_pos; [|intros z; now apply gabor_pos]. intros E. apply (f_equal (@length C)) in E. unfold gabor_2d in E. rewrite img_length in E. cbn in E. nia.
Qed.
Lemma osum_sub_scal k (l l' : list C) : length l = length l' -> osum cops (map (fun ab => fst ab - k * snd ab) (combine l l')) = osum cops l - k * osum cops l'.
Proof.
  revert l'. induction l as [|a l IH]; intros [|b l'] H; try discriminate; cbn [combine map].
  - unfold osum. cbn. ring.
  - unfold osum in *. cbn [fold_right]. injection H as H. specialize (IH l' H). cbn [o_add o_zero complex_ops fst snd] in *. rewrite IH. ring.
Qed.
Lemma morlet_sum M N s t x sl : (0 < M)%nat -> (0 < N)%nat -> (0 < s)%R -> (0 < sl)%R -> osum cops (morlet_2d M N s t x sl) = 0.
Proof.
  intros HM HN Hs Hsl. unfold morlet_2d. rewrite osum_sub_scal by (unfold gabor_2d; now rewrite !img_length).
  destruct (gabor_sum_pos M N s t sl HM HN Hs Hsl) as [_ P]. field. intros E. rewrite E in P. cbn in P. lra.
Qed.
Lemma psi_hat_0 M N L j t : (0 < M)%nat -> (0 < N)%nat -> (1 <= L)%Z -> (0 <= j)%Z -> px N (psi_hat M N L j t) 0 0 = 0.
Proof.
  intros HM HN HL Hj. unfold psi_hat. rewrite real_fft2_0 by (assumption || apply morlet_length).
  assert (0 < IZR (2 ^ j))%R by (apply IZR_lt, Z.pow_pos_nonneg; lia). assert (1 <= IZR L)%R by (now apply IZR_le).
  rewrite morlet_sum; try assumption; [reflexivity|lra|]. apply Rdiv_lt_0_compat; lra.
Qed.
Lemma phi_hat_0 M N J : (0 < M)%nat -> (0 < N)%nat -> pos_real (px N (phi_hat M N J) 0 0).
Proof.
  intros HM HN. unfold phi_hat. rewrite real_fft2_0 by (assumption || apply img_length).
  assert (0 < powerRZ 2 (J - 1))%R by (apply powerRZ_lt; lra).
  destruct (gabor_sum_pos M N (8 / 10 * powerRZ 2 (J - 1)) 0 1 HM HN) as [_ P]; [lra|lra|]. split; [reflexivity|]. exact P.
Qed.
